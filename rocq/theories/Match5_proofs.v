(** Lemmas for C80: meshes whose nodes are all on the boundary. *)
From Coq Require Import QArith Qabs.
From Verif Require Import Base StdAlgo Ownership_model Elem_model Elem_spec Mesh_model Mesh_spec Merge_model Merge_spec Spatial_model Spatial_proofs Match_model Match_spec Match_proofs Match2_proofs Match3_proofs.
Local Open Scope nat_scope.

Definition is_num (a : fl) : Prop := exists q, a = Some q.
Lemma fold_min_num l : l <> [] -> Forall is_num l -> is_num (fold_min l).
Proof.
  destruct l as [|a l]; [done|]. intros _ H. cbn [fold_min]. pose proof (foldl_min_in l a) as Hi. rewrite Forall_forall in H. by apply H.
Qed.
Lemma column_num E d : d < 3 -> (forall p, p ∈ E -> exists v, p.2 = coords v) -> Forall is_num (column d E).
Proof.
  intros Hd H. unfold column. apply Forall_forall. intros a Ha. apply elem_of_list_fmap in Ha as (p & -> & Hp). destruct (H p Hp) as (v & ->). unfold coords. destruct d as [|[|[|d]]]; [by eexists..|lia].
Qed.
Lemma neg_num l : Forall is_num l -> Forall is_num (map (fl1 Qopp) l).
Proof. induction 1 as [|a l [q ->] _ IH]; constructor; [by eexists|done]. Qed.
Lemma init_num root E : E <> [] -> (forall p, p ∈ E -> exists v, p.2 = coords v) -> exists d0 d1 d2 o0 o1 o2, initSpaceHashTable root E = ([Some d0; Some d1; Some d2], [Some o0; Some o1; Some o2]).
Proof.
  intros Hne H. unfold initSpaceHashTable, bounds. cbn [seq map zip_with].
  assert (Hc : forall d, column d E <> []) by (intros d; unfold column; by destruct E).
  assert (Hm : forall d, d < 3 -> is_num (fold_min (column d E)) /\ is_num (fold_min (map (fl1 Qopp) (column d E)))).
  { intros d Hd. pose proof (column_num E d Hd H) as Hn. split; apply fold_min_num; [done|done| |by apply neg_num]. specialize (Hc d). by destruct (column d E). }
  destruct (Hm 0 ltac:(lia)) as [[a0 ->] [b0 ->]]. destruct (Hm 1 ltac:(lia)) as [[a1 ->] [b1 ->]]. destruct (Hm 2 ltac:(lia)) as [[a2 ->] [b2 ->]].
  cbn [fl1 fl2]. assert (Hi : forall q, exists r, (if fl_lt (Some q) (Some minimum_dx) then Some minimum_dx else Some q) = Some r) by (intros q; destruct (fl_lt _ _); by eexists).
  match goal with |- context [([(if fl_lt (Some ?x) _ then _ else _); (if fl_lt (Some ?y) _ then _ else _); (if fl_lt (Some ?z) _ then _ else _)], _)] => destruct (Hi x) as [r0 ->]; destruct (Hi y) as [r1 ->]; destruct (Hi z) as [r2 ->] end.
  by eexists _, _, _, _, _, _.
Qed.
Lemma snap_any odd odd' x x0 d : within 100000 (Some x) -> within 100000 (Some x0) -> step_ok (Some d) -> snap odd (Some x) (Some x0) (Some d) = snap odd' (Some x) (Some x0) (Some d).
Proof.
  intros Hx H0 Hd. pose proof (snap_range (fun r => match r with None => 0 | Some _ => max64 end)%Z ltac:(done) (Some x) (Some x0) (Some d) Hx H0 Hd) as R. revert R. unfold snap. cbn [fl2]. destruct (in64 _); [done|]. lia.
Qed.
Lemma key_any odd odd' d0 d1 d2 o0 o1 o2 v : step_ok (Some d0) -> step_ok (Some d1) -> step_ok (Some d2) -> within 100000 (Some o0) -> within 100000 (Some o1) -> within 100000 (Some o2) -> moderate v ->
  point_key odd [Some d0; Some d1; Some d2] [Some o0; Some o1; Some o2] (coords v) = point_key odd' [Some d0; Some d1; Some d2] [Some o0; Some o1; Some o2] (coords v).
Proof.
  intros D0 D1 D2 O0 O1 O2 (M0 & M1 & M2). unfold point_key, coords. cbn [zip_with map fst snd]. by rewrite (snap_any odd odd' _ _ d0), (snap_any odd odd' _ _ d1), (snap_any odd odd' _ _ d2).
Qed.
Lemma find_in_ext c1 c2 k p ofs : (forall k', c1 k' = c2 k') -> find_in c1 k p ofs = find_in c2 k p ofs.
Proof. intros H. induction ofs as [|o ofs IH]; [done|]. cbn [find_in]. destruct (add_key k o) as [k'| |]; cbn [mbind res_bind]; [|done|done]. rewrite H. by destruct (List.find _ _). Qed.
Lemma map_res_ext {A B} (f g : A -> res B) l : (forall a, a ∈ l -> f a = g a) -> map_res f l = map_res g l.
Proof. induction l as [|a l IH]; intros H; [done|]. cbn [map_res]. rewrite (H a) by left. rewrite IH; [done|]. intros b Hb. apply H. by right. Qed.
Lemma filter_in_ext {A} (f g : A -> bool) l : (forall a, a ∈ l -> f a = g a) -> List.filter f l = List.filter g l.
Proof. induction l as [|a l IH]; intros H; [done|]. cbn [List.filter]. rewrite (H a) by left. rewrite IH; [done|]. intros b Hb. apply H. by right. Qed.
Lemma matching_any odd odd' root E1 E2 : E1 <> [] -> (forall p, p ∈ E1 -> exists v, p.2 = coords v /\ moderate v) -> (forall p, p ∈ E2 -> exists v, p.2 = coords v /\ moderate v) ->
  matchExistingNodes odd root E1 E2 = matchExistingNodes odd' root E1 E2.
Proof.
  intros Hne H1 H2. unfold matchExistingNodes. destruct (init_num root E1 Hne) as (d0 & d1 & d2 & o0 & o1 & o2 & Hi); [intros p Hp; destruct (H1 p Hp) as (v & Hv & _); by exists v|].
  destruct (init_ok root E1) as (d0' & d1' & d2' & o0' & o1' & o2' & Hi' & Hst); [intros p Hp; right; exact (H1 p Hp)|]. rewrite Hi in Hi'. injection Hi' as <- <- <- <- <- <-. destruct Hst as (D0 & D1 & D2 & O0 & O1 & O2). rewrite Hi.
  assert (Hb : forall k, bucket odd [Some d0; Some d1; Some d2] [Some o0; Some o1; Some o2] E1 k = bucket odd' [Some d0; Some d1; Some d2] [Some o0; Some o1; Some o2] E1 k).
  { intros k. unfold bucket. apply filter_in_ext. intros q Hq. destruct (H1 q Hq) as (w & -> & Mw). by rewrite (key_any odd odd') by done. }
  erewrite map_res_ext; [reflexivity|]. intros p Hp. cbv beta. destruct (H2 p Hp) as (v & -> & Mv). rewrite (key_any odd odd') by done. rewrite (find_in_ext _ _ _ _ _ Hb). reflexivity.
Qed.
Lemma match_any_odd odd odd' root sched order (x1 x2 : mesh pt) n1 k1 n2 k2 loc1 loc2 : (forall l, sched l ≡ₚ l) -> (forall l, order l ≡ₚ l) ->
  whole_mesh x1 n1 k1 -> whole_mesh x2 n2 k2 -> located x1 loc1 -> located x2 loc2 -> 0 < n1 ->
  (forall b, b < n1 -> boundary_node x1 b /\ moderate (loc1 b)) -> (forall a, a < n2 -> boundary_node x2 a /\ moderate (loc2 a)) ->
  match_map odd root sched order x1 x2 = match_map odd' root sched order x1 x2.
Proof.
  intros Hs Ho W1 W2 L1 L2 Hn B1 B2. unfold match_map. destruct (node_coords_ok sched order x1 n1 k1 loc1 Hs Ho W1 L1) as (c1 & -> & (_ & HA & HC1)). rewrite !bind_ok. destruct (node_coords_ok sched order x2 n2 k2 loc2 Hs Ho W2 L2) as (c2 & -> & (_ & _ & HC2)). rewrite !bind_ok.
  apply matching_any.
  - destruct (HA 0 Hn) as (c & Hc). intros E. rewrite E in Hc. by apply elem_of_nil in Hc.
  - intros [i c] Hp. destruct (HC1 i c Hp) as [Hi [(_ & v & -> & Hv)|[Hnb _]]]; [|by destruct (B1 i Hi)]. exists v. split; [done|]. eapply moderate_comp; [exact Hv|by apply B1].
  - intros [i c] Hp. destruct (HC2 i c Hp) as [Hi [(_ & v & -> & Hv)|[Hnb _]]]; [|by destruct (B2 i Hi)]. exists v. split; [done|]. eapply moderate_comp; [exact Hv|by apply B2].
Qed.
