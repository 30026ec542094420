(** C42, C43: static condensation. *)
From Coq Require Import Ring Ring_theory ZArith ZArithRing.
From Verif Require Import Base StdAlgo Elem_model Elem_spec Elem_proofs Mesh_model Mesh_spec Mesh_proofs Partition_model LocalView_model Cond_model Cond_spec Cond_proofs Cond2_proofs Cond3_proofs Cond4_proofs Cond5_proofs Cond6_proofs.
Local Arguments Nat.mul : simpl never.
Local Arguments Nat.add : simpl never.
Local Arguments Nat.sub : simpl never.

Section props.
  Context {F : Type} (zero one : F) (add mul sub : F -> F -> F) (opp : F -> F).
  Context {V : Type} (D : nat) (dofs : nat -> res dof_triplet) (g : nat -> list (option nat)) (ro co ho : nat -> nat).
  Notation mat := (nat -> nat -> F).
  Infix "+!" := add (at level 50, left associativity).
  (** condenseSystem succeeds and adds every entry of the element system at the position
      of its unknowns: [P], [I]: the primary and the interior unknowns in order. *)
  Definition addresses_right (nr : nat) (fields : list nat) (a b : mat) (e : element V) (d : cond_data) (gs : gsys) (U : list nat) (P I : list (nat * nat)) : Prop :=
    let K := kernel_unknowns e fields in
    exists d' gs', condenseSystem add D dofs nr fields a b e d gs = Ok (d', gs') /\ cd_dims d' = cd_dims d /\
      (forall i j w w', I !! i = Some w -> I !! j = Some w' -> cd_diag d' i j = cd_diag d i j +! entry zero add K a w w') /\
      (forall i j w w', P !! i = Some w -> I !! j = Some w' -> cd_upper d' i j = cd_upper d i j +! entry zero add K a w w') /\
      (forall i w r, I !! i = Some w -> r < nr -> cd_rhs d' i r = cd_rhs d i r +! load zero add K (fun k => b k r) w) /\
      (forall u v, u ∈ U -> v ∈ U -> gs'.1 (ro u) (co v) = gs.1 (ro u) (co v) +! gentry zero add K (dof_of g e) a u v) /\
      (forall u r, u ∈ U -> r < nr -> gs'.2 (ho u) r = gs.2 (ho u) r +! gload zero add K (dof_of g e) (fun k => b k r) u).
  Context (Rth : ring_theory zero one add mul sub opp (@eq F)).
  Add Ring Fring : Rth.
  (** C42, for components in ascending order.  Without the order it is false
      (condensation_addresses_refuted). *)
  Theorem condensation_addresses_partial nr fields a b e d gs U P I :
    typed_el e -> dofs_agree g D dofs ro co ho e -> StronglySorted lt fields -> fields_active g D e fields ->
    insert_elem_info D dofs e = Ok (cd_dims d) -> inj_on U ro -> inj_on U co -> inj_on U ho -> dofs_in g U e ->
    enumerates (fun w => is_Some (dof_of g e w)) P -> enumerates (interior g e D) I ->
    addresses_right nr fields a b e d gs U P I.
  Proof using Rth.
    intros Ht Hg Hs Hf Hd Iro Ico Iho Hin HP HI.
    rewrite (enum_eq _ _ _ HP (plist_enum D dofs g ro co ho e Hg)), (enum_eq _ _ _ HI (ilist_enum D g e)).
    destruct (condense_ok zero one add mul sub opp Rth D dofs g ro co ho e Ht Hg fields Hs Hf nr a b d gs U Hd Iro Ico Iho Hin) as (d' & gs' & E & E0 & _ & H1 & H2 & H3 & H4 & H5).
    exists d', gs'. done.
  Qed.
  (** The sizes: blocks of a row per primary and a row and column per interior unknown. *)
  Theorem condensation_sizes (e : element V) P I : typed_el e -> dofs_agree g D dofs ro co ho e ->
    enumerates (fun w => is_Some (dof_of g e w)) P -> enumerates (interior g e D) I ->
    exists dims, insert_elem_info D dofs e = Ok dims /\ cd_bnd dims = length P /\ cd_int dims = length I.
  Proof.
    clear Rth. intros Ht Hg HP HI. rewrite (enum_eq _ _ _ HP (plist_enum D dofs g ro co ho e Hg)), (enum_eq _ _ _ HI (ilist_enum D g e)).
    destruct (info_ok D dofs g ro co ho e Ht Hg) as (dims & E & _ & E1 & E2). by exists dims.
  Qed.

  (** C43.  For all elements, kernel calls in any order, with symmetric element matrices
      and invertible interior blocks ([inverse] is right on these), assembly succeeds and
      for every right-hand side the full system holds exactly when the assembled system
      holds and the interior values are the recovered ones, which recoverSolution writes
      at the interior nodes. *)
  Theorem condensation_equivalent ids elem U nr inverse calls ord (st0 : cstate) :
    NoDup U -> NoDup ids -> inj_on U ro -> inj_on U co -> inj_on U ho ->
    (forall id, id ∈ ids -> typed_el (elem id : element V) /\ dofs_agree g D dofs ro co ho (elem id) /\ dofs_in g U (elem id)) ->
    Forall (call_ok g D ids elem) calls -> ord ≡ₚ ids ->
    (forall id, id ∈ ids -> insert_elem_info D dofs (elem id) = Ok (cd_dims (st0.1 id))) ->
    (forall u v, u ∈ U -> v ∈ U -> st0.2.1 (ro u) (co v) = zero) -> (forall u r, u ∈ U -> r < nr -> st0.2.2 (ho u) r = zero) ->
    (forall id M I, id ∈ ids -> enumerates (interior g (elem id) D) I ->
      (forall i j, i < length I -> j < length I -> M i j = interior_block zero add elem calls id I i j) -> is_inverse zero one add mul (length I) M (inverse (length I) M)) ->
    exists st', assemble_condensed zero add mul opp D dofs ids elem inverse nr calls ord st0 = Ok st' /\
      forall x : nat -> nat -> F, exists ysol : nat -> nat -> nat * nat -> F,
        (forall r y, r < nr -> full_system zero add mul g D ids elem calls U r (x r) y <->
          condensed_system zero add mul ro co ho st'.2 U r (x r) /\ forall id w, id ∈ ids -> interior g (elem id) D w -> y id w = ysol r id w) /\
        (forall X sol_inds id, (forall r u, u ∈ U -> X r (ho u) = x r u) -> Forall (fun c => c < D) sol_inds -> id ∈ ids ->
          exists ws, recover_element zero add mul opp D dofs nr X sol_inds (elem id) (st'.1 id) = Ok ws /\
            forall t, t ∈ ws <-> exists w r m, interior g (elem id) D w /\ w.2 ∈ sol_inds /\ r < nr /\ el_nodes (elem id) !! w.1 = Some m /\ t = (m, w.2, r, ysol r id w)).
  Proof using Rth.
    intros HnU Hnid Iro Ico Iho Hels Hc Hord Hd H01 H02 Hinv.
    assert (Hen : forall id, id ∈ ids -> enumerates (interior g (elem id) D) (ilist D g (elem id))) by (intros id _; apply ilist_enum).
    destruct (elimination zero one add mul sub opp Rth D dofs g ro co ho ids elem U nr HnU Hnid Iro Ico Iho Hels inverse calls ord st0 Hc Hord Hd H01 H02) as (st' & E & Hdim & Heq).
    { intros id M Hid HM. by apply (Hinv id M (ilist D g (elem id)) Hid (Hen id Hid)). }
    exists st'. split; [done|]. intros x.
    set (pos := fun id (w : nat * nat) => match list_find (eq w) (ilist D g (elem id)) with Some (k, _) => k | None => 0 end).
    assert (Hpos : forall id k w, ilist D g (elem id) !! k = Some w -> pos id w = k).
    { intros id k w Hk. unfold pos. destruct (list_find (eq w) (ilist D g (elem id))) as [[k' w']|] eqn:Ef.
      - apply list_find_Some in Ef as (Hk' & <- & _). eapply NoDup_lookup; [apply (ilist_nodup D g (elem id))|done..].
      - apply list_find_None in Ef. rewrite Forall_forall in Ef. exfalso. apply (Ef w); [by eapply elem_of_list_lookup_2|done]. }
    exists (fun r id w => recovered zero add mul opp D g (elem id) (st'.1 id) (x r) (pos id w) r). split.
    - intros r y Hr. rewrite Heq by done. split; intros [H1 H2]; (split; [done|]).
      + intros id w Hid Hw. apply (proj2 (Hen id Hid)) in Hw. apply elem_of_list_lookup_1 in Hw as [k Hk]. rewrite (Hpos id k w Hk). by apply H2.
      + intros id k w Hid Hk. rewrite (H2 id w Hid) by (apply (proj2 (Hen id Hid)); by eapply elem_of_list_lookup_2). by rewrite (Hpos id k w Hk).
    - intros X sol_inds id HX Hsol Hid. destruct (Hels id Hid) as (Ht & Hg & HU).
      destruct (recover_ok zero one add mul sub opp Rth D dofs g ro co ho (elem id) Ht Hg nr X (st'.1 id) x sol_inds) as (ws & Ew & Hws); [rewrite Hdim by done; by apply Hd|done| |].
      { intros i r Hi. apply HX. destruct (plist_dof D dofs g ro co ho (elem id) Ht Hg i Hi) as (w & _ & Hw & _). by eapply HU. }
      exists ws. split; [done|]. intros t. rewrite Hws. split.
      + intros (k & w & r & m & Hk & Hs & Hr & Hm & ->). exists w, r, m. rewrite (Hpos id k w Hk). split; [apply (proj2 (Hen id Hid)); by eapply elem_of_list_lookup_2|]. done.
      + intros (w & r & m & Hw & Hs & Hr & Hm & ->). apply (proj2 (Hen id Hid)) in Hw. apply elem_of_list_lookup_1 in Hw as [k Hk]. exists k, w, r, m. by rewrite (Hpos id k w Hk).
  Qed.

  (** A component that all boundary nodes of an element have makes an interior unknown;
      if no kernel of the element has the component, the interior block is singular. *)
  Theorem no_kernel_singular (elem : nat -> element V) calls id I w : zero <> one -> NoDup I -> w ∈ I -> (forall c, c ∈ calls -> kc_el c = id -> ~ w.2 ∈ kc_fields c) ->
    ~ exists N, is_inverse zero one add mul (length I) (interior_block zero add elem calls id I) N.
  Proof using Rth.
    intros Hz Hn Hw Hno [N HN]. apply elem_of_list_lookup_1 in Hw as [i Hi]. assert (Hlt : i < length I) by (by eapply lookup_lt_Some). destruct (HN i i Hlt Hlt) as [H _]. rewrite Nat.eqb_refl in H. apply Hz. rewrite <- H. symmetry.
    apply (Sig_0 zero one add mul sub opp Rth). intros k _. enough (interior_block zero add elem calls id I i k = zero) as -> by ring.
    unfold interior_block. rewrite Hi. destruct (I !! k) as [w'|]; [|done]. apply (Sig_0 zero one add mul sub opp Rth). intros c Hc. destruct (decide (kc_el c = id)) as [E|E]; [|by apply only_false]. rewrite only_true by done.
    apply (Sig_0 zero one add mul sub opp Rth). intros q _. apply only_false. intros Hq. apply elem_of_list_lookup_2 in Hq. destruct w as [n c']. apply elem_of_prod in Hq as [_ Hq]. by apply (Hno c Hc E).
  Qed.
End props.

(** ** Examples over the integers: three nodes per line, two components.  The elements 7
    and 9 share node 2; node 4 lacks component 1. *)
Definition cz_g (n : nat) : list (option nat) := match n with 0 => [Some 0; Some 1] | 2 => [Some 2; Some 3] | 4 => [Some 4; None] | _ => [None; None] end.
Definition cz_dofs (n : nat) : res dof_triplet := Ok (map (fmap S) (cz_g n), map (fmap (fun u => u + 2)) (cz_g n), map (fmap (fun u => u)) (cz_g n)).
Definition cz_elem (id : nat) : element nat := if id =? 7 then mk_el Line 2 [0; 1; 2] [0; 0] 7 else mk_el Line 2 [2; 3; 4] [0; 0] 9.
Definition cz_U : list nat := [0; 1; 2; 3; 4].
Definition cz_ids : list nat := [7; 9].
Definition cz_data (id : nat) : cond_data (F := Z) :=
  {| cd_dims := if id =? 7 then {| cd_inds := [0; 1]; cd_bnd := 4; cd_int := 2 |} else {| cd_inds := [0]; cd_bnd := 3; cd_int := 1 |};
     cd_diag := fun _ _ => 5%Z; cd_inv := fun _ _ => 6%Z; cd_upper := fun _ _ => 7%Z; cd_rhs := fun _ _ => 8%Z |}.
Definition cz_a1 (k l : nat) : Z := if (k =? 2) && (l =? 2) then 2 else if (k =? 3) && (l =? 3) then 1 else if (k + l =? 5) && (k <? 4) && (l <? 4) then 1 else Z.of_nat (k + l).
Definition cz_a2 (k l : nat) : Z := if (k =? 1) && (l =? 1) then 0 else Z.of_nat (k * l + 1).
Definition cz_a3 (k l : nat) : Z := if (k =? 1) && (l =? 1) then (-1) else Z.of_nat (k + l).
Definition cz_b (k r : nat) : Z := Z.of_nat (k + 10 * r).
Definition cz_calls : list (@kernel_call Z) :=
  [ {| kc_el := 9; kc_fields := [0]; kc_a := cz_a3; kc_b := cz_b |}; {| kc_el := 7; kc_fields := [0; 1]; kc_a := cz_a1; kc_b := cz_b |}; {| kc_el := 7; kc_fields := [1]; kc_a := cz_a2; kc_b := cz_b |} ].
(** Inverse of 1x1 and 2x2 matrices with determinant 1 or -1. *)
Definition cz_inverse (n : nat) (M : nat -> nat -> Z) : nat -> nat -> Z :=
  if n =? 1 then M else let det := Z.sub (Z.mul (M 0 0) (M 1 1)) (Z.mul (M 0 1) (M 1 0)) in
  fun i j => Z.mul det match i, j with 0, 0 => M 1 1 | 0, _ => Z.opp (M 0 1) | _, 0 => Z.opp (M 1 0) | _, _ => M 0 0 end.
Definition cz_st : cstate (F := Z) := (cz_data, ((fun _ _ => 0%Z), (fun _ _ => 0%Z))).

Lemma cz_typed id : typed_el (cz_elem id).
Proof. unfold cz_elem. destruct (id =? 7); done. Qed.
Lemma cz_agree id : dofs_agree cz_g 2 cz_dofs S (fun u => u + 2) (fun u => u) (cz_elem id).
Proof. intros i n _ _. split; [|done]. unfold cz_g. by repeat (destruct n as [|n]; [done|]). Qed.
Lemma cz_in id : dofs_in cz_g cz_U (cz_elem id).
Proof.
  intros [i c] u Hu. unfold dof_of in Hu. destruct (el_bnd _ _); [|done]. unfold node_dof in Hu. cbn [fst snd] in Hu. destruct (el_nodes _ !! i) as [n|]; [|done]. cbn [mbind option_bind] in Hu.
  destruct n as [|[|[|[|[|n]]]]], c as [|[|c]]; cbn in Hu; try discriminate Hu; injection Hu as <-; apply (bool_decide_unpack _); by vm_compute.
Qed.
Lemma cz_fields7 fs : StronglySorted lt fs -> (forall c, c ∈ fs -> c < 2) -> fields_active cz_g 2 (cz_elem 7) fs.
Proof.
  intros Hs Hf. split; [by apply strict_nodup|]. intros c Hc. specialize (Hf c Hc). split; [done|]. intros i Hi Hb. cbn in Hi. destruct i as [|[|[|i]]]; [| |destruct c as [|[|c]]; [by eexists|by eexists|lia]|lia].
  - destruct c as [|[|c]]; [by eexists|by eexists|lia].
  - done.
Qed.
Lemma cz_fields9 : fields_active cz_g 2 (cz_elem 9) [0].
Proof.
  split; [apply (bool_decide_unpack _); by vm_compute|]. intros c Hc. apply elem_of_list_singleton in Hc as ->. split; [lia|]. intros i Hi Hb. cbn in Hi. destruct i as [|[|[|i]]]; [by eexists|done|by eexists|lia].
Qed.
Lemma cz_calls_ok : Forall (call_ok cz_g 2 cz_ids cz_elem) cz_calls.
Proof.
  assert (S1 : StronglySorted lt [0]) by (repeat constructor). assert (S2 : StronglySorted lt [1]) by (repeat constructor). assert (S3 : StronglySorted lt [0; 1]) by (repeat constructor).
  repeat apply Forall_cons_2; [| | |constructor].
  - split; [right; left|]. split; [done|]. split; [apply cz_fields9|]. intros k l _ _. cbn [kc_a]. unfold cz_a3. rewrite andb_comm. by rewrite (Nat.add_comm k l).
  - split; [left|]. split; [done|]. split; [apply cz_fields7; [done|]; intros c Hc; cbn [kc_fields] in Hc; rewrite !elem_of_cons, elem_of_nil in Hc; lia|]. intros k l _ _. cbn [kc_a]. unfold cz_a1. rewrite (andb_comm (l =? 2)), (andb_comm (l =? 3)), (Nat.add_comm l k). rewrite <- !andb_assoc, (andb_comm (l <? 4)). done.
  - split; [left|]. split; [done|]. split; [apply cz_fields7; [done|]; intros c Hc; cbn [kc_fields] in Hc; rewrite !elem_of_cons, elem_of_nil in Hc; lia|]. intros k l _ _. cbn [kc_a]. unfold cz_a2. rewrite andb_comm. by rewrite (Nat.mul_comm k l).
Qed.
Notation zinv := (is_inverse 0%Z 1%Z Z.add Z.mul).
Lemma cz_inv id M I : id ∈ cz_ids -> enumerates (interior cz_g (cz_elem id) 2) I ->
  (forall i j, i < length I -> j < length I -> M i j = interior_block 0%Z Z.add cz_elem cz_calls id I i j) -> zinv (length I) M (cz_inverse (length I) M).
Proof.
  intros Hid HI HM. rewrite (enum_eq _ _ _ HI (ilist_enum 2 cz_g (cz_elem id))) in *. apply elem_of_cons in Hid as [->|Hid]; [|apply elem_of_list_singleton in Hid as ->].
  - assert (E : ilist 2 cz_g (cz_elem 7) = [(1, 0); (1, 1)]) by (by vm_compute). rewrite E in *. cbn [length] in *.
    pose proof (HM 0 0 ltac:(lia) ltac:(lia)) as H00. pose proof (HM 0 1 ltac:(lia) ltac:(lia)) as H01. pose proof (HM 1 0 ltac:(lia) ltac:(lia)) as H10. pose proof (HM 1 1 ltac:(lia) ltac:(lia)) as H11. vm_compute in H00, H01, H10, H11.
    intros i j Hi Hj. unfold cz_inverse. cbn [Nat.eqb]. cbv zeta. unfold Sig. cbn [seq foldr]. destruct i as [|[|i]], j as [|[|j]]; try lia; rewrite ?H00, ?H01, ?H10, ?H11; by vm_compute.
  - assert (E : ilist 2 cz_g (cz_elem 9) = [(1, 0)]) by (by vm_compute). rewrite E in *. cbn [length] in *.
    pose proof (HM 0 0 ltac:(lia) ltac:(lia)) as H00. vm_compute in H00. intros i j Hi Hj. unfold cz_inverse. cbn [Nat.eqb]. unfold Sig. cbn [seq foldr]. destruct i as [|i], j as [|j]; try lia. rewrite ?H00. by vm_compute.
Qed.
Lemma cz_rth : ring_theory 0%Z 1%Z Z.add Z.mul Z.sub Z.opp (@eq Z).
Proof. exact Zth. Qed.
Lemma cz_dims id : id ∈ cz_ids -> insert_elem_info 2 cz_dofs (cz_elem id) = Ok (cd_dims (cz_data id)).
Proof. intros Hid. apply elem_of_cons in Hid as [->|Hid]; [|apply elem_of_list_singleton in Hid as ->]; by vm_compute. Qed.
Lemma cz_injS : inj_on cz_U S.
Proof. intros u v _ _ H. by injection H. Qed.
Lemma cz_inj2 : inj_on cz_U (fun u => u + 2).
Proof. intros u v _ _ H. lia. Qed.
(** All hypotheses hold, so the theorem applies; the dimensions are those of two elements
    with 4 and 3 primary, 2 and 1 interior unknowns. *)
Example condensation_example : exists st', assemble_condensed 0%Z Z.add Z.mul Z.opp 2 cz_dofs cz_ids cz_elem cz_inverse 2 cz_calls [9; 7] cz_st = Ok st' /\
  forall x, exists ysol, (forall r y, r < 2 -> full_system 0%Z Z.add Z.mul cz_g 2 cz_ids cz_elem cz_calls cz_U r (x r) y <->
    condensed_system 0%Z Z.add Z.mul S (fun u => u + 2) (fun u => u) st'.2 cz_U r (x r) /\ forall id w, id ∈ cz_ids -> interior cz_g (cz_elem id) 2 w -> y id w = ysol r id w) /\
    (forall X sol_inds id, (forall r u, u ∈ cz_U -> X r u = x r u) -> Forall (fun c => c < 2) sol_inds -> id ∈ cz_ids ->
      exists ws, recover_element 0%Z Z.add Z.mul Z.opp 2 cz_dofs 2 X sol_inds (cz_elem id) (st'.1 id) = Ok ws /\
        forall t, t ∈ ws <-> exists w r m, interior cz_g (cz_elem id) 2 w /\ w.2 ∈ sol_inds /\ r < 2 /\ el_nodes (cz_elem id) !! w.1 = Some m /\ t = (m, w.2, r, ysol r id w)).
Proof.
  apply (condensation_equivalent 0%Z 1%Z Z.add Z.mul Z.sub Z.opp 2 cz_dofs cz_g S (fun u => u + 2) (fun u => u) cz_rth cz_ids cz_elem cz_U 2 cz_inverse cz_calls [9; 7] cz_st).
  - apply (bool_decide_unpack _); by vm_compute.
  - apply (bool_decide_unpack _); by vm_compute.
  - apply cz_injS.
  - apply cz_inj2.
  - intros u v _ _ H. done.
  - intros id _. split; [apply cz_typed|]. split; [apply cz_agree|apply cz_in].
  - apply cz_calls_ok.
  - apply (bool_decide_unpack _); by vm_compute.
  - apply cz_dims.
  - done.
  - done.
  - apply cz_inv.
Qed.
(** The assembled entries of nodes 0 and 2 for component 0, and of node 4; the
    right-hand side of node 2. *)
Example condensation_example_values :
  match assemble_condensed 0%Z Z.add Z.mul Z.opp 2 cz_dofs cz_ids cz_elem cz_inverse 2 cz_calls [9; 7] cz_st with
  | Ok st => (st.2.1 1 2, st.2.1 1 4, st.2.1 3 4, st.2.1 5 6, st.2.2 2 1) = (-10, -18, -41, 13, -145)%Z | _ => False end.
Proof. vm_compute. reflexivity. Qed.
(** C42: the hypotheses of the theorem for element 7, and the blocks after the call. *)
Example addresses_example : addresses_right 0%Z Z.add 2 cz_dofs cz_g S (fun u => u + 2) (fun u => u) 2 [0; 1] cz_a1 cz_b (cz_elem 7) (cz_data 7) ((fun _ _ => 0%Z), (fun _ _ => 0%Z)) cz_U [(0, 0); (0, 1); (2, 0); (2, 1)] [(1, 0); (1, 1)].
Proof.
  apply (condensation_addresses_partial 0%Z 1%Z Z.add Z.mul Z.sub Z.opp 2 cz_dofs cz_g S (fun u => u + 2) (fun u => u) cz_rth).
  - apply cz_typed.
  - apply cz_agree.
  - repeat constructor.
  - apply cz_fields7; [repeat constructor|]. intros c Hc. rewrite !elem_of_cons, elem_of_nil in Hc. lia.
  - apply cz_dims. left.
  - apply cz_injS.
  - apply cz_inj2.
  - intros u v _ _ H. done.
  - apply cz_in.
  - assert (E : plist 2 cz_g (cz_elem 7) = [(0, 0); (0, 1); (2, 0); (2, 1)]) by (by vm_compute). rewrite <- E. apply (plist_enum 2 cz_dofs cz_g S (fun u => u + 2) (fun u => u)), cz_agree.
  - assert (E : ilist 2 cz_g (cz_elem 7) = [(1, 0); (1, 1)]) by (by vm_compute). rewrite <- E. apply ilist_enum.
Qed.
(** C42 is false for components that are not in ascending order: the entry of the
    interior unknown of component 0 is added at that of component 1. *)
Theorem condensation_addresses_refuted : ~ (forall (fields : list nat) a b gs P I, fields_active cz_g 2 (cz_elem 7) fields ->
  enumerates (fun w => is_Some (dof_of cz_g (cz_elem 7) w)) P -> enumerates (interior cz_g (cz_elem 7) 2) I ->
  addresses_right 0%Z Z.add 2 cz_dofs cz_g S (fun u => u + 2) (fun u => u) 1 fields a b (cz_elem 7) (cz_data 7) gs cz_U P I).
Proof.
  intros H. destruct (H [1; 0] (fun k l => Z.of_nat (k + l)) (fun _ _ => 0%Z) ((fun _ _ => 0%Z), (fun _ _ => 0%Z)) (plist 2 cz_g (cz_elem 7)) (ilist 2 cz_g (cz_elem 7))) as (d' & gs' & E & _ & Hd & _).
  - destruct (cz_fields7 [0; 1]) as [_ H']; [repeat constructor|intros c Hc; rewrite !elem_of_cons, elem_of_nil in Hc; lia|]. split; [apply (bool_decide_unpack _); by vm_compute|]. intros c Hc. apply H'. rewrite !elem_of_cons, elem_of_nil in *. tauto.
  - apply (plist_enum 2 cz_dofs cz_g S (fun u => u + 2) (fun u => u)), cz_agree.
  - apply ilist_enum.
  - specialize (Hd 0 0 (1, 0) (1, 0) eq_refl eq_refl).
    assert (Hv : match condenseSystem Z.add 2 cz_dofs 1 [1; 0] (fun k l => Z.of_nat (k + l)) (fun _ _ => 0%Z) (cz_elem 7) (cz_data 7) ((fun _ _ => 0%Z), (fun _ _ => 0%Z)) with Ok (d, _) => cd_diag d 0 0 = 9%Z | _ => False end) by (vm_compute; reflexivity).
    rewrite E in Hv. rewrite Hv in Hd. vm_compute in Hd. done.
Qed.
(** The interior unknowns of the kernels alone may have an invertible block while the
    block that the code inverts is singular: element 7 with a kernel for component 0
    only, its boundary nodes having both components (e.g. from elements of another
    domain). *)
Definition cz_calls0 : list (@kernel_call Z) := [ {| kc_el := 7; kc_fields := [0]; kc_a := cz_a3; kc_b := cz_b |} ].
Theorem condensation_spurious_interior_refuted : ~ (forall I I', enumerates (interior cz_g (cz_elem 7) 2) I ->
  enumerates (fun w => interior cz_g (cz_elem 7) 2 w /\ exists c, c ∈ cz_calls0 /\ w ∈ call_unknowns cz_elem c) I' ->
  (exists N, zinv (length I') (interior_block 0%Z Z.add cz_elem cz_calls0 7 I') N) -> exists N, zinv (length I) (interior_block 0%Z Z.add cz_elem cz_calls0 7 I) N).
Proof.
  intros H. apply (no_kernel_singular 0%Z 1%Z Z.add Z.mul Z.sub Z.opp cz_rth cz_elem cz_calls0 7 (ilist 2 cz_g (cz_elem 7)) (1, 1)).
  - done.
  - apply ilist_nodup.
  - assert (E : ilist 2 cz_g (cz_elem 7) = [(1, 0); (1, 1)]) by (by vm_compute). rewrite E. right; left.
  - intros c Hc _ Hw. apply elem_of_list_singleton in Hc as ->. cbn in Hw. by apply elem_of_list_singleton in Hw.
  - apply (H (ilist 2 cz_g (cz_elem 7)) [(1, 0)]); [apply ilist_enum| |].
    + assert (HI : forall w, interior cz_g (cz_elem 7) 2 w <-> w ∈ [(1, 0); (1, 1)]) by (intros w; assert (E : ilist 2 cz_g (cz_elem 7) = [(1, 0); (1, 1)]) by (by vm_compute); rewrite <- E; symmetry; apply (proj2 (ilist_enum 2 cz_g (cz_elem 7)))).
      split; [repeat constructor|]. intros w. rewrite HI. split.
      * intros Hw. apply elem_of_list_singleton in Hw as ->. split; [left|]. eexists. split; [left|]. apply (bool_decide_unpack _); by vm_compute.
      * intros [Hw (c & Hc & Hk)]. apply elem_of_list_singleton in Hc as ->. apply elem_of_cons in Hw as [->|Hw]; [left|]. apply elem_of_list_singleton in Hw as ->. apply elem_of_prod in Hk as [_ Hk]. cbn in Hk. by apply elem_of_list_singleton in Hk.
    + exists (fun _ _ => (-1)%Z). intros i j Hi Hj. cbn [length] in Hi, Hj. destruct i as [|i], j as [|j]; try lia. by vm_compute.
Qed.

Print Assumptions condensation_addresses_partial.
Print Assumptions condensation_sizes.
Print Assumptions condensation_equivalent.
Print Assumptions condensation_addresses_refuted.
Print Assumptions condensation_spurious_interior_refuted.
