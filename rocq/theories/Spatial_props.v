(** C33: the spatial hash table. *)
From Coq Require Import QArith Qround Qabs Lqa.
From Verif Require Import Base StdAlgo Merge_proofs Spatial_model Spatial_spec Spatial_proofs.

(** Computed quotients with an error of at most [eps] are enough: every inserted point
    that is closer than (1 - 2 eps) times the cell size in each coordinate is found;
    what is found is a sub-collection of what was inserted (so nothing is returned more often
    than it was inserted) and lies within (2 + 2 eps) cells.
    Missing: with rounding ([eps] > 0) the factor 1 itself, which is false
    ([spatial_hash_rounding_refuted]). *)
Theorem spatial_hash_close_partial {T} (quot : Q -> Q -> Q -> Q) (eps minimum : Q) (dx origin : list Q) (l : list (list Q * T)) (x : list Q) :
  (0 < minimum)%Q -> length dx = length x -> length origin = length x -> Forall (fun v => length v.1 = length x) l ->
  let t0 := make_table minimum dx origin in let t := insert_all quot t0 l in
  accurate quot eps origin (t_dx t) x -> Forall (fun v => accurate quot eps origin (t_dx t) v.1) l ->
  cell_size minimum dx (t_dx t) /\ t_size t = length l /\ all_values t ≡ₚ l /\
  exists far, l ≡ₚ proximate quot t x ++ far /\
    (forall v, v ∈ far -> ~ closer (1 - 2 * eps) (t_dx t) v.1 x) /\
    (forall v, v ∈ proximate quot t x -> forall i a b d, x !! i = Some a -> v.1 !! i = Some b -> t_dx t !! i = Some d -> (Qabs (b - a) <= (2 + 2 * eps) * d)%Q).
Proof.
  intros Hm Hd Ho Hl. cbv zeta. set (t0 := make_table minimum dx origin). destruct (insert_ok quot t0 l) as (H1 & H2 & H3 & H4 & H5). rewrite H2. destruct (make_dx (T := T) minimum dx origin Hm) as [Hc Hp].
  intros Hx Hv. split; [done|]. split; [rewrite H3; done|]. split; [done|].
  assert (Hdl : length (t_dx t0) = length x) by (cbn; by rewrite map_length).
  assert (HP : proximate quot (insert_all quot t0 l) x ≡ₚ List.filter (fun v => adjacent (snapToGrid quot t0 x) (snapToGrid quot t0 v.1)) l) by (apply proximate_perm; [done|by apply snap_length]).
  exists (List.filter (fun v => negb (adjacent (snapToGrid quot t0 x) (snapToGrid quot t0 v.1))) l). split; [|split].
  - rewrite HP. clear. induction l as [|a l IH]; [done|]. cbn. destruct (adjacent _ _); cbn; [by constructor|]. rewrite <- Permutation_middle. by constructor.
  - intros v Hin Hcl. apply filter_elem in Hin as [Hin Ha]. rewrite (close_adjacent quot eps t0 x v.1) in Ha; try done. exact (proj1 (Forall_forall _ _) Hv v Hin).
  - intros v Hin. rewrite HP in Hin. apply filter_elem in Hin as [Hin Ha]. apply (adjacent_close quot eps t0 x v.1); try done; [exact (proj1 (Forall_forall _ _) Hl v Hin)|exact (proj1 (Forall_forall _ _) Hv v Hin)].
Qed.

(** Without rounding. *)
Definition exact_quot (x x0 d : Q) : Q := ((x - x0) / d)%Q.
Theorem spatial_hash_close {T} (minimum : Q) (dx origin : list Q) (l : list (list Q * T)) (x : list Q) :
  (0 < minimum)%Q -> length dx = length x -> length origin = length x -> Forall (fun v => length v.1 = length x) l ->
  let t := insert_all exact_quot (make_table minimum dx origin) l in
  exists far, l ≡ₚ proximate exact_quot t x ++ far /\ forall v, v ∈ far -> ~ closer 1 (t_dx t) v.1 x.
Proof.
  intros Hm Hd Ho Hl. cbv zeta. assert (Ha : forall t p, accurate exact_quot 0 origin t p). { intros t p i a x0 d _ _ _. unfold exact_quot. setoid_replace ((a - x0) / d - (a - x0) / d)%Q with 0%Q by ring. by cbv. }
  destruct (spatial_hash_close_partial exact_quot 0 minimum dx origin l x Hm Hd Ho Hl (Ha _ _)) as (_ & _ & _ & far & HP & Hf & _); [apply Forall_forall; intros; apply Ha|].
  exists far. split; [done|]. intros v Hv [Hlen Hc]. apply (Hf v Hv). split; [done|]. intros i a b d H1 H2 H3. setoid_replace ((1 - 2 * 0) * d)%Q with (1 * d)%Q by ring. by eapply Hc.
Qed.

Example spatial_hash_example : let l := [([0; 0], 1); ([4 # 10; -(4 # 10)], 2); ([3; 0], 3); ([9 # 10; 1 # 2], 4); ([0; 0], 5)]%Q in
  map snd (proximate exact_quot (insert_all exact_quot (make_table (1 # 1000) [1; -1]%Q [0; 0]%Q) l) [0; 0]%Q) = [1; 2; 5; 4]%Q /\
  Forall (fun v => length v.1 = 2) l.
Proof. split; [by vm_compute|by repeat constructor]. Qed.

(** Two points exactly one cell size apart can be two cells apart: strictly smaller is needed. *)
Example spatial_hash_boundary : proximate exact_quot (insert_all exact_quot (make_table (1 # 1000) [1]%Q [0]%Q) [([1 # 2]%Q, tt)]) [- (1 # 2)]%Q = [].
Proof. by vm_compute. Qed.

(** With rounded quotients the claim is false, however accurate the rounding is
    relative to the coordinates: here the subtraction x - x0 is rounded to an even number, as in
    binary64 for x - x0 above 2^53; with the origin far away, points half a cell
    apart can land two cells apart. *)
Definition even_quot (x x0 d : Q) : Q := (inject_Z (2 * lround ((x - x0) / 2)) / d)%Q.
Theorem spatial_hash_rounding_refuted : exists (origin x : list Q) (l : list (list Q * nat)),
  (forall i a a0, x !! i = Some a -> origin !! i = Some a0 -> (Qabs (even_quot a a0 1 - (a - a0)) <= (1 # 100000) * (a - a0))%Q) /\
  Forall (fun v => forall i a a0, v.1 !! i = Some a -> origin !! i = Some a0 -> (Qabs (even_quot a a0 1 - (a - a0)) <= (1 # 100000) * (a - a0))%Q) l /\
  exists v, v ∈ l /\ closer 1 [1]%Q v.1 x /\ proximate even_quot (insert_all even_quot (make_table (1 # 1000) [1]%Q origin) l) x = [].
Proof.
  exists [- (1000000 # 1)]%Q, [3 # 4]%Q, [([(5 # 4)]%Q, 7)]. split; [|split].
  - intros [|i] a a0; [|done]. intros [= <-] [= <-]. by vm_compute.
  - constructor; [|constructor]. intros [|i] a a0; [|done]. intros [= <-] [= <-]. by vm_compute.
  - exists ([(5 # 4)]%Q, 7). split; [left|]. split; [|by vm_compute]. split; [done|]. intros [|i] a b d; [|done]. intros [= <-] [= <-] [= <-]. by vm_compute.
Qed.

Print Assumptions spatial_hash_close_partial.
Print Assumptions spatial_hash_close.
Print Assumptions spatial_hash_rounding_refuted.
