(** C84: the solution manager. *)
From Verif Require Import Base StdAlgo Ownership_model LocalView_spec LocalView_proofs Helpers_model Helpers_spec Helpers_proofs SolMan_model SolMan_spec SolMan_proofs.

Lemma u32_std : std_type {| i_signed := false; i_bits := 32 |}.
Proof. unfold std_type. cbn. tauto. Qed.
Lemma index_known own n i : local_index own n i -> i < localSize own.
Proof. intros H. apply lookup_lt_Some in H. rewrite app_length, seq_length in H. done. Qed.

(** Every field has at every node what was written there last. *)
Theorem solution_contents {V} own fields (initial : V) l : Forall (within fields (localSize own)) l ->
  exists s, for_each apply l (make_manager own fields initial) = Ok s /\
    (forall f n, f < fields -> n < localSize own -> view_get f n s = Ok (contents initial l f n)) /\
    forall inds n, Forall (fun f => f < fields) inds -> n < localSize own -> node_values_local n inds s = Ok (map (fun f => contents initial l f n) inds) /\
      (good_own own -> forall gid, local_index own gid n -> node_values_global gid inds s = Ok (map (fun f => contents initial l f n) inds)).
Proof.
  intros Hl. destruct (changes_ok own fields _ _ l (holds_make own fields initial) Hl) as (s & E & H). exists s. split; [done|]. split; [intros f n Hf Hn; by apply (holds_get own fields)|]. intros inds n Hi Hn.
  assert (G : node_values_local n inds s = Ok (map (fun f => contents initial l f n) inds)). { apply map_res_ok. intros f Hf. apply (holds_get own fields); [done|by eapply (proj1 (Forall_forall _ _) Hi)|done]. }
  split; [done|]. intros Hg gid Hgid. unfold node_values_global. destruct H as (-> & _). by rewrite (local_index_fun own gid n Hg Hgid).
Qed.
(** An access reads the values of its fields, also those written after it was made. *)
Theorem solution_access {V} own fields (initial : V) before after t inds nodes :
  Forall (within fields (localSize own)) before -> Forall (within fields (localSize own)) after ->
  std_type t -> Forall (fun z => (0 <= z < Z.of_nat fields)%Z /\ (z < 2 ^ 32)%Z /\ representable (i_signed t) (i_bits t) z) inds -> Forall (fun n => n < localSize own) nodes ->
  exists s a s', for_each apply before (make_manager own fields initial) = Ok s /\ get_access t inds s = Ok a /\ for_each apply after s = Ok s' /\
    let values := map (fun n => map (fun z => contents initial (before ++ after) (Z.to_nat z) n) inds) nodes in
    access_local a nodes s' = Ok values /\
    (good_own own -> forall gids, Forall2 (local_index own) gids nodes -> access_global a gids s' = Ok values).
Proof.
  intros Hb Ha Ht Hi Hn. destruct (changes_ok own fields _ _ before (holds_make own fields initial) Hb) as (s & E & H). destruct (changes_ok own fields _ s after H Ha) as (s' & E' & H').
  assert (G : get_access t inds s = Ok (mk_access (map Z.to_nat inds) own)).
  { unfold get_access. rewrite (map_res_ok _ (fun z => z)); [rewrite bind_ok, map_id; destruct H as (-> & _); done|]. intros z Hz. destruct (proj1 (Forall_forall _ _) Hi z Hz) as (H1 & H2 & H3).
    apply (cast_lemma t {| i_signed := false; i_bits := 32 |} z Ht u32_std H3); [unfold representable; cbn [i_signed i_bits]; lia|lia]. }
  exists s, (mk_access (map Z.to_nat inds) own), s'. split; [done|]. split; [done|]. split; [done|]. cbv zeta.
  assert (L : access_local (mk_access (map Z.to_nat inds) own) nodes s' = Ok (map (fun n => map (fun z => contents initial (before ++ after) (Z.to_nat z) n) inds) nodes)).
  { rewrite (access_ok own fields _ s' _ nodes H'); [|apply Forall_map; eapply Forall_impl; [exact Hi|]; intros z (Hz & _); cbn; lia|done]. unfold contents. rewrite foldl_app. f_equal. apply map_ext. intros n. by rewrite map_map. }
  split; [exact L|]. intros Hg gids Hgi. unfold access_global. cbn [fa_own]. replace (map (getLocalIndex own) gids) with nodes; [exact L|].
  clear -Hg Hgi. induction Hgi as [|g n gids nodes Hx _ IH]; [done|]. cbn. by rewrite (local_index_fun own g n Hg Hx), <- IH.
Qed.
(** An index that does not fit is never replaced by another one. *)
Theorem solution_access_exact {V} (s : manager V) t inds a : std_type t -> Forall (representable (i_signed t) (i_bits t)) inds ->
  (get_access t inds s = Ok a -> Forall (fun z => 0 <= z < 2 ^ 32)%Z inds /\ fa_inds a = map Z.to_nat inds /\ fa_own a = sm_own s) /\ get_access t inds s <> UB.
Proof.
  intros Ht Hi. unfold get_access. split.
  - intros E. apply bind_inv in E as (u & Hu & [= <-]). cbn [fa_inds fa_own]. apply map_res_inv in Hu. assert (G : Forall (fun z => 0 <= z < 2 ^ 32)%Z inds /\ u = inds); [|destruct G as [G ->]; done].
    induction Hu as [|z y inds u Hz _ IH]; [done|]. apply Forall_cons_1 in Hi as [Hz' Hi]. destruct (IH Hi) as [IH1 ->]. destruct (proj1 (cast_lemma t {| i_signed := false; i_bits := 32 |} z Ht u32_std Hz') y Hz) as [-> Hr]. split; [|done]. constructor; [|done]. unfold representable in Hr. cbn [i_signed i_bits] in Hr. lia.
  - assert (G : map_res (exactIntegerCast t {| i_signed := false; i_bits := 32 |}) inds <> UB); [|by destruct (map_res _ inds)].
    induction Hi as [|z inds Hz _ IH]; [done|]. cbn [map_res]. pose proof (proj1 (proj2 (cast_lemma t {| i_signed := false; i_bits := 32 |} z Ht u32_std Hz))) as Hn. destruct (exactIntegerCast t _ z); [|done|done]. rewrite bind_ok. by destruct (map_res _ inds).
Qed.
(** The getter for ranges does replace it. *)
Theorem solution_getter_refuted : ~ (forall V (s : manager V) n inds a, Forall (representable false 64) inds -> make_getter n inds s = Ok a -> Forall2 (fun f z => Z.of_nat f = z) (fa_inds a) inds).
Proof.
  intros H. specialize (H nat (make_manager {| so_begin := 0; so_end := 1; so_shared := [] |} 1 7) 1 [2 ^ 32]%Z (mk_access [0] {| so_begin := 0; so_end := 1; so_shared := [] |})).
  assert (E : Forall2 (fun f z => Z.of_nat f = z) [0] [2 ^ 32]%Z). { apply H; [constructor; [unfold representable; lia|constructor]|vm_compute; reflexivity]. }
  apply Forall2_cons_1 in E as [E _]. lia.
Qed.
(** A field that does not exist is accepted, and reading it is out of bounds. *)
Theorem solution_field_refuted : ~ (forall V (own : ownership) fields (x : V) inds a, get_access {| i_signed := false; i_bits := 64 |} inds (make_manager own fields x) = Ok a -> access_local a [0] (make_manager own fields x) <> UB).
Proof.
  intros H. apply (H nat {| so_begin := 0; so_end := 1; so_shared := [] |} 1 7 [1%Z] (mk_access [1] {| so_begin := 0; so_end := 1; so_shared := [] |})); vm_compute; done.
Qed.

Definition sample_own : ownership := {| so_begin := 4; so_end := 6; so_shared := [1; 9] |}.
Definition sample_before : list (change nat) := [SetFields [0; 2] 5; ViewSet 1 3 8].
Definition sample_after : list (change nat) := [RawSet 0 2 6; SetFields [0] 3].
Example solution_example :
  Forall (within 3 (localSize sample_own)) (sample_before ++ sample_after) /\ good_own sample_own /\ Forall2 (local_index sample_own) [9; 4] [3; 0] /\
  match for_each apply sample_before (make_manager sample_own 3 0) with
  | Ok s => match get_access {| i_signed := true; i_bits := 32 |} [2%Z; 1%Z] s, for_each apply sample_after s with
            | Ok a, Ok s' => access_global a [9; 4] s' = Ok [[5; 8]; [6; 0]] /\ sm_values s' = [3; 3; 3; 3; 0; 0; 0; 8; 6; 5; 5; 5]
            | _, _ => False
            end
  | _ => False
  end.
Proof.
  split; [repeat constructor; cbn; lia|]. split; [split; [repeat constructor; lia|intros n Hn; cbn in *; rewrite !elem_of_cons, elem_of_nil in Hn; lia]|]. split; [repeat constructor|]. vm_compute. done.
Qed.
Example solution_access_example : Forall (fun z => (0 <= z < Z.of_nat 3)%Z /\ (z < 2 ^ 32)%Z /\ representable true 32 z) [2%Z; 1%Z].
Proof. repeat constructor; unfold representable; lia. Qed.

Print Assumptions solution_contents.
Print Assumptions solution_access.
Print Assumptions solution_access_exact.
Print Assumptions solution_getter_refuted.
Print Assumptions solution_field_refuted.
