(** C75: the additions of one job. *)
From Verif Require Import Base StdAlgo Elem_proofs Merge_model Merge_proofs Dofs_model Ownership_spec ImportExport_spec NodeVals_model NodeVals_spec NodeVals_proofs NodeVals_props LocalBC_model LocalBC_proofs Cond_spec Cond3_proofs MatFree_model MatFree_spec MatFree_proofs.

Lemma blocks_seq nn nu : concat (map (fun k => map (fun u => k * nu + u) (seq 0 nu)) (seq 0 nn)) = seq 0 (nn * nu).
Proof.
  induction nn as [|nn IH]; [done|]. rewrite seq_S, map_app, concat_app, IH. cbn [map concat]. rewrite app_nil_r. replace (S nn * nu) with (nn * nu + nu) by lia. rewrite seq_app. f_equal. cbn [plus]. apply list_eq. intros i. rewrite map_lookup. destruct (decide (i < nu)) as [H|H]; [rewrite !lookup_seq_lt by done; cbn; f_equal; lia|]. rewrite !lookup_seq_ge by lia. done.
Qed.
Lemma map_as_seq {A B} (f : A -> B) (l : list A) d : map f l = map (fun k => f (nth k l d)) (seq 0 (length l)).
Proof.
  apply list_eq. intros i. rewrite !map_lookup. destruct (l !! i) as [a|] eqn:E; [rewrite lookup_seq_lt by (by eapply lookup_lt_Some); cbn; by rewrite (nth_lookup_Some _ _ _ _ E)|]. apply lookup_ge_None in E. by rewrite lookup_seq_ge.
Qed.
Lemma concat_perm {A} (l l' : list (list A)) : l ≡ₚ l' -> concat l ≡ₚ concat l'.
Proof. induction 1 as [|x l l' _ IH|x y l|l l' l'' _ IH1 _ IH2]; cbn [concat]; [done|by rewrite IH|rewrite !app_assoc; f_equiv; apply Permutation_app_comm|by etransitivity]. Qed.
Lemma concat_swap {A B C} (f : A -> B -> list C) (l : list A) (l' : list B) : concat (map (fun a => concat (map (f a) l')) l) ≡ₚ concat (map (fun b => concat (map (fun a => f a b) l)) l').
Proof.
  induction l as [|a l IH]; cbn [map concat].
  - induction l' as [|b l' IH']; [done|]. cbn [map concat]. by rewrite <- IH'.
  - rewrite IH. clear IH. induction l' as [|b l' IH']; cbn [map concat]; [done|]. rewrite <- IH'. rewrite <- !app_assoc. apply Permutation_app_head. rewrite !app_assoc. apply Permutation_app_tail. apply Permutation_app_comm.
Qed.
Lemma concat_twice {A} (l : list (list (list A))) : concat (concat l) = concat (map (@concat A) l).
Proof. induction l as [|a l IH]; [done|]. cbn [map concat]. by rewrite concat_app, IH. Qed.
Lemma at_cell_cons {F : Type} l r d r0 (v : F) cells : at_cell l r ((d, r0, v) :: cells) = if (d =? l) && (r0 =? r) then v :: at_cell l r cells else at_cell l r cells.
Proof. unfold at_cell. cbn [List.filter fst snd]. by destruct ((d =? l) && (r0 =? r)). Qed.
Lemma block_div k u nu : u < nu -> (k * nu + u) / nu = k /\ (k * nu + u) mod nu = u.
Proof. intros H. split; [rewrite Nat.div_add_l by lia; rewrite Nat.div_small by done; lia|rewrite Nat.add_comm, Nat.mod_add by lia; by apply Nat.mod_small]. Qed.

Section job.
  Context {F : Type} (zero one : F) (add mul sub : F -> F -> F) (opp : F -> F) (Rth : ring_theory zero one add mul sub opp eq).
  Notation fsum := (fsum zero add).
  Notation Sig := (Cond_spec.Sig zero add).
  Notation only := (Cond_spec.only zero).
  Context (border : bool) (c s : nat) (x : list (list F * list F)) (bc : dbc) (alpha : F) (nc : nat) (m : local_dof_map) (j : job F).
  Context (Hx : length x = nc) (Hs : forall col, col ∈ x -> shape c s col).
  Notation lim := (if border then c + s else c).
  Context (Hj : job_ok m lim j).
  Notation nd := (n_dofs j).
  Notation nn := (length (j_nodes j)).
  Notation nu := (length (j_fields j)).
  Notation dof := (job_dof m j).
  Definition entry_at (n f : nat) : option nat := match ld_map m !! n with Some row => match row !! f with Some d => d | None => None end | None => None end.
  Lemma job_dof_at k u n f : j_nodes j !! k = Some n -> j_fields j !! u = Some f -> dof (k * nu + u) = entry_at n f.
  Proof using. clear. intros Hn Hf. unfold job_dof. destruct (block_div k u nu) as [-> ->]; [by eapply lookup_lt_Some|]. by rewrite Hn, Hf. Qed.
  Lemma getDofs_ok : getDofs m (j_nodes j) (j_fields j) = Ok (map dof (seq 0 nd)).
  Proof using Hj.
    clear Hx Hs. destruct Hj as [Hn Hi]. clear Hj. unfold getDofs. rewrite (map_res_ok _ (fun n => map (entry_at n) (j_fields j))).
    - rewrite bind_ok. f_equal. unfold n_dofs. rewrite <- blocks_seq, concat_map, map_map. f_equal. rewrite (map_as_seq _ (j_nodes j) 0). apply map_ext_in. intros k Hk%elem_of_list_In%elem_of_seq. rewrite map_map. rewrite (map_as_seq _ (j_fields j) 0). apply map_ext_in. intros u Hu%elem_of_list_In%elem_of_seq. destruct (lookup_lt_is_Some_2 (j_nodes j) k ltac:(lia)) as [n En]. destruct (lookup_lt_is_Some_2 (j_fields j) u ltac:(lia)) as [f Ef]. by rewrite (job_dof_at k u n f En Ef), (nth_lookup_Some _ _ _ _ En), (nth_lookup_Some _ _ _ _ Ef).
    - intros n Hin. pose proof (Hn n Hin) as Hlt. destruct (lookup_lt_is_Some_2 (ld_map m) n Hlt) as [row Hrow]. unfold dofs_at. rewrite Hrow, bind_ok. apply elem_of_list_lookup in Hin as [k Hk]. apply map_res_ok. intros f Hf. apply elem_of_list_lookup in Hf as [u Hu]. unfold entry_at. rewrite Hrow. pose proof (lookup_lt_Some _ _ _ Hk) as Hk'. pose proof (lookup_lt_Some _ _ _ Hu) as Hu'.
      destruct (Hi (k * nu + u)) as (l & Hl & _); [unfold n_dofs; nia|]. rewrite (job_dof_at k u n f Hk Hu) in Hl. unfold entry_at in Hl. rewrite Hrow in Hl. destruct (row !! f) as [d|] eqn:Ed; [|done]. by apply rd_ok.
  Qed.
  Definition xv (d : option nat) (r : nat) : F :=
    match d with Some l => match x !! r with Some col => match get c col l with Some v => v | None => zero end | None => zero end | None => zero end.
  Lemma x_at_ok l r : l < lim -> r < nc -> x_at border c x (Some l) r = Ok (xv (Some l) r).
  Proof using Hx Hs.
    clear Hj. intros Hl Hr. unfold x_at, xv. destruct (lookup_lt_is_Some_2 x r ltac:(lia)) as [col Hcol]. rewrite (rd_ok _ _ _ Hcol), bind_ok, Hcol. destruct (Hs col) as [S1 S2]; [by eapply elem_of_list_lookup_2|]. unfold get. destruct (Nat.leb_spec c l) as [H|H].
    - rewrite (proj2 (Nat.ltb_ge l c) H). destruct border; cbn [andb]; [|lia]. destruct (lookup_lt_is_Some_2 col.2 (l - c) ltac:(lia)) as [v Hv]. rewrite Hv. by apply rd_ok.
    - rewrite (proj2 (Nat.ltb_lt l c) H). rewrite andb_false_r. destruct (lookup_lt_is_Some_2 col.1 l ltac:(lia)) as [v Hv]. rewrite Hv. by apply rd_ok.
  Qed.
  Notation dird := (isDirichletDof bc).
  Lemma bcs_dir d : bcs_exist bc && dird d = dird d.
  Proof using. clear. destruct bc as [[[|a set] sorted]|]; [cbn; by destruct d|done|done]. Qed.
  Definition xl (k r : nat) : F := if dird (dof k) then zero else xv (dof k) r.
  Lemma dofs_at_seq i : i < nd -> map dof (seq 0 nd) !! i = Some (dof i).
  Proof using. clear. intros H. by rewrite map_lookup, lookup_seq_lt. Qed.
  Lemma gather_ok : exists rows, gather zero border c x bc nc (map dof (seq 0 nd)) = Ok rows /\ forall i r, i < nd -> r < nc -> nth r (nth i rows []) zero = xl i r.
  Proof using Hx Hs Hj.
    exists (map (fun d => map (fun r => if dird d then zero else xv d r) (seq 0 nc)) (map dof (seq 0 nd))). split.
    - unfold gather. apply map_res_ok. intros d Hd. apply elem_of_list_In, in_map_iff in Hd as (i & <- & Hi%elem_of_list_In%elem_of_seq). rewrite bcs_dir. destruct (dird (dof i)).
      + f_equal. clear. apply list_eq. intros k. rewrite map_lookup. destruct (decide (k < nc)); [rewrite lookup_replicate_2, lookup_seq_lt by done; done|]. rewrite lookup_seq_ge by lia. apply lookup_ge_None_2. rewrite replicate_length. lia.
      + destruct Hj as [_ Hdof]. destruct (Hdof i ltac:(lia)) as (l & El & Hl). rewrite El. apply map_res_ok. intros r Hr%elem_of_seq. apply x_at_ok; [done|lia].
    - intros i r Hi Hr. erewrite (nth_lookup_Some _ i); [|by rewrite map_lookup, dofs_at_seq]. cbn. erewrite (nth_lookup_Some _ r); [|by rewrite map_lookup, lookup_seq_lt]. done.
  Qed.
  Definition lofs (i : nat) : nat := match dof i with Some l => l | None => 0 end.
  Definition cells_of (y : nat -> nat -> F) (i : nat) : list (nat * nat * F) := if dird (dof i) then [] else map (fun r => (lofs i, r, mul (y i r) alpha)) (seq 0 nc).
  Definition job_cells (y : nat -> nat -> F) : list (nat * nat * F) := concat (map (cells_of y) (seq 0 nd)).
  Lemma cell_ok b i r (v : F) : i < nd -> (b = border \/ b = true) -> cell b c s (dof i) r v = Ok (lofs i, r, v).
  Proof using Hj.
    clear Hx Hs. intros Hi Hb. destruct Hj as [_ Hd]. destruct (Hd i Hi) as (l & El & Hl). unfold cell, lofs. rewrite El. rewrite (proj2 (Nat.ltb_lt _ _)); [done|]. destruct Hb as [-> | ->]; [done|destruct border; lia].
  Qed.
  Lemma scatter_job_ok y : scatter mul border c s bc alpha nc y (map dof (seq 0 nd)) = Ok (job_cells y).
  Proof using Hj.
    clear Hx Hs. unfold scatter. rewrite map_length, seq_length. rewrite (map_res_ok _ (cells_of y)); [by rewrite bind_ok|]. intros i Hi%elem_of_seq. rewrite (rd_ok _ _ (dof i)) by (apply dofs_at_seq; lia). rewrite bind_ok, bcs_dir. unfold cells_of. destruct (dird (dof i)); [done|]. apply map_res_ok. intros r _. apply cell_ok; [lia|by left].
  Qed.

  (** ** Sum factorisation. *)
  Definition dirs (node : nat) : list nat := List.filter (fun u => dird (dof (node * nu + u))) (seq 0 nu).
  Lemma dof_none_dir node u : bc = None -> dird (dof (node * nu + u)) = false.
  Proof using. clear. intros ->. done. Qed.
  Lemma info_ok : exists info, getDirichletIndsSumFact nn nu (map dof (seq 0 nd)) bc = Ok info /\ (forall node, node < nn -> dir_of info node = Ok (dirs node)) /\
    (default 0 (last info.2) = 0 -> forall node, node < nn -> dirs node = []).
  Proof using.
    clear Hj Hs Hx. assert (Hdirs0 : bc = None -> forall node, dirs node = []). { intros Hbc node. unfold dirs. generalize (seq 0 nu). induction l as [|u l IH]; [done|]. cbn [List.filter]. by rewrite dof_none_dir. }
    unfold getDirichletIndsSumFact. destruct bc as [[set sorted]|] eqn:Ebc; rewrite <- Ebc in *.
    - set (offs := fun k => length (concat (map dirs (seq 0 k)))).
      assert (Hrun : forall k, k <= nn -> for_each (fun node (io : list nat * list nat) =>
        ds ← map_res (fun l => rd (map dof (seq 0 nd)) (node * nu + l)) (seq 0 nu);
        Ok (io.1 ++ List.filter (fun l => match ds !! l with Some d => dird d | None => false end) (seq 0 nu), io.2 ++ [length (io.1 ++ List.filter (fun l => match ds !! l with Some d => dird d | None => false end) (seq 0 nu))])) (seq 0 k) ([], [0]) = Ok (concat (map dirs (seq 0 k)), map offs (seq 0 (k + 1)))).
      { induction k as [|k IHk]; intros Hk; [done|]. rewrite seq_S, for_each_app, IHk by lia. rewrite bind_ok. cbn [for_each plus]. rewrite (map_res_ok _ (fun u => dof (k * nu + u))).
        - rewrite !bind_ok. cbn [fst snd].
          assert (Ef : List.filter (fun l => match map (fun u => dof (k * nu + u)) (seq 0 nu) !! l with Some d => dird d | None => false end) (seq 0 nu) = dirs k).
          { unfold dirs. apply filter_ext_in. intros l Hl%elem_of_list_In%elem_of_seq. rewrite map_lookup, lookup_seq_lt by lia. done. }
          rewrite Ef. rewrite map_app, concat_app. cbn [map concat]. rewrite app_nil_r. f_equal. f_equal. replace (S k + 1) with (S (k + 1)) by lia. rewrite (seq_S (k + 1)), map_app. f_equal. cbn [map plus]. unfold offs. f_equal. replace (k + 1) with (S k) by lia. rewrite seq_S, map_app, concat_app. cbn [map concat plus]. by rewrite app_nil_r.
        - intros u Hu%elem_of_seq. apply rd_ok, dofs_at_seq. unfold n_dofs. nia. }
      eexists. split; [apply Hrun; lia|]. unfold dir_of. cbn [fst snd].
      assert (Hoff : forall k, k <= nn -> map offs (seq 0 (nn + 1)) !! k = Some (offs k)) by (intros k Hk; by rewrite map_lookup, lookup_seq_lt by lia).
      assert (Hsplit : forall node, node < nn -> offs (node + 1) = offs node + length (dirs node) /\ take (length (dirs node)) (drop (offs node) (concat (map dirs (seq 0 nn)))) = dirs node).
      { intros node Hnode. unfold offs. split.
        - replace (node + 1) with (S node) by lia. rewrite seq_S, map_app, concat_app, app_length. cbn [map concat plus]. by rewrite app_nil_r.
        - assert (Es : seq 0 nn = seq 0 node ++ node :: seq (S node) (nn - S node)). { replace nn with (node + S (nn - S node)) at 1 by lia. rewrite seq_app. done. }
          rewrite Es, map_app, concat_app. cbn [map concat]. rewrite drop_app, take_app. done. }
      split.
      + intros node Hnode. rewrite (rd_ok _ _ _ (Hoff node ltac:(lia))), bind_ok, (rd_ok _ _ _ (Hoff (node + 1) ltac:(lia))), bind_ok. f_equal. destruct (Hsplit node Hnode) as [E1 E2]. rewrite E1. replace (offs node + length (dirs node) - offs node) with (length (dirs node)) by lia. done.
      + rewrite Nat.add_1_r, seq_S, map_app. cbn [map plus]. rewrite last_snoc. cbn [default]. intros H0 node Hnode. destruct (Hsplit node Hnode) as [E1 _].
        assert (Hmono : forall a b, a <= b -> offs a <= offs b). { intros a b Hab. unfold offs. replace b with (a + (b - a)) by lia. rewrite seq_app, map_app, concat_app, app_length. lia. }
        pose proof (Hmono (node + 1) nn ltac:(lia)) as Hm. cbn in H0. apply nil_length_inv. lia.
    - exists ([], replicate (nn + 1) 0). split; [done|]. split; [|intros _ node _; by apply Hdirs0].
      intros node Hnode. unfold dir_of. cbn [fst snd]. rewrite !(rd_ok _ _ 0) by (apply lookup_replicate_2; lia). rewrite !bind_ok. by rewrite Hdirs0.
  Qed.
  Lemma seq_strict a n : StronglySorted lt (seq a n).
  Proof using. clear. revert a. induction n as [|n IH]; intros a; cbn [seq]; constructor; [apply IH|]. apply List.Forall_forall. intros z Hz%in_seq. lia. Qed.
  Lemma filter_strict (p : nat -> bool) l : StronglySorted lt l -> StronglySorted lt (List.filter p l).
  Proof using.
    clear. induction 1 as [|a l Hl IH Ha]; cbn [List.filter]; [constructor|]. destruct (p a); [|done]. constructor; [done|]. apply List.Forall_forall. intros z [Hz _]%filter_In. rewrite List.Forall_forall in Ha. by apply Ha.
  Qed.
  Lemma others_ok node : set_difference (seq 0 nu) (dirs node) = List.filter (fun u => negb (dird (dof (node * nu + u)))) (seq 0 nu).
  Proof using.
    clear. apply strict_ext; [apply set_difference_sorted; [apply seq_strict|apply filter_strict, seq_strict]|apply filter_strict, seq_strict|].
    intros u. rewrite set_difference_elem by (try apply filter_strict; apply seq_strict). unfold dirs. rewrite !filter_In'. destruct (dird (dof (node * nu + u))); cbn [negb]; naive_solver.
  Qed.
  (** The buffer holds the operand for the unknowns in [S]. *)
  Definition idx (n u r : nat) : nat := r * (nu * nn) + u * nn + n.
  Definition filled (S : nat -> nat -> nat -> Prop) (len : nat) (buf : list F) : Prop :=
    length buf = len /\ forall n u r, n < nn -> u < nu -> r < nc -> S n u r -> buf !! idx n u r = Some (xl (n * nu + u) r).
  Lemma idx_inj n u r n' u' r' : n < nn -> u < nu -> n' < nn -> u' < nu -> idx n u r = idx n' u' r' -> n = n' /\ u = u' /\ r = r'.
  Proof using.
    clear. unfold idx. intros H1 H2 H3 H4 E. assert (u * nn + n < nu * nn) by nia. assert (u' * nn + n' < nu * nn) by nia.
    assert (Er : r = r') by (apply (f_equal (fun z => z / (nu * nn))) in E; rewrite <- !Nat.add_assoc, !Nat.div_add_l in E by lia; rewrite !(Nat.div_small (_ + _)) in E by done; lia). subst r'.
    assert (E' : u * nn + n = u' * nn + n') by lia. assert (Eu : u = u') by (apply (f_equal (fun z => z / nn)) in E'; rewrite !Nat.div_add_l in E' by lia; rewrite !Nat.div_small in E' by done; lia). lia.
  Qed.
  Lemma idx_lt n u r : n < nn -> u < nu -> r < nc -> idx n u r < nd * nc.
  Proof using. clear. unfold idx, n_dofs. intros H1 H2 H3. assert (u * nn + n < nu * nn) by nia. nia. Qed.
  Lemma write_ok S len buf n u r v : filled S len buf -> nd * nc <= len -> n < nn -> u < nu -> r < nc -> v = xl (n * nu + u) r ->
    exists buf', wr buf (idx n u r) v = Ok buf' /\ filled (fun n' u' r' => S n' u' r' \/ (n' = n /\ u' = u /\ r' = r)) len buf'.
  Proof using.
    clear Hj Hs Hx. intros [Lb Hb] Hlen Hn Hu Hr ->. pose proof (idx_lt n u r Hn Hu Hr). rewrite wr_ok by lia. eexists. split; [done|]. split; [by rewrite insert_length|]. intros n' u' r' Hn' Hu' Hr' HS. destruct (decide (idx n' u' r' = idx n u r)) as [E|E].
    - rewrite E, list_lookup_insert by lia. by destruct (idx_inj _ _ _ _ _ _ Hn' Hu' Hn Hu E) as (-> & -> & ->).
    - rewrite list_lookup_insert_ne by done. apply Hb; try done. destruct HS as [?|(-> & -> & ->)]; [done|]. done.
  Qed.
  Lemma loop_ok {A} (f : A -> list F -> res (list F)) (T : A -> nat -> nat -> nat -> Prop) len l :
    (forall a S buf, a ∈ l -> filled S len buf -> exists buf', f a buf = Ok buf' /\ filled (fun n u r => S n u r \/ T a n u r) len buf') ->
    forall S buf, filled S len buf -> exists buf', for_each f l buf = Ok buf' /\ filled (fun n u r => S n u r \/ exists a, a ∈ l /\ T a n u r) len buf'.
  Proof using.
    clear. induction l as [|a l IH]; intros Hf S buf HS; cbn [for_each].
    - exists buf. split; [done|]. destruct HS as [L H]. split; [done|]. intros n u r Hn Hu Hr [HS|(a & Ha & _)]; [by apply H|by apply elem_of_nil in Ha].
    - destruct (Hf a S buf) as (b1 & E1 & H1); [left|done|]. rewrite E1, bind_ok. destruct (IH ltac:(intros; apply Hf; [by right|done]) _ b1 H1) as (b2 & E2 & H2). exists b2. split; [done|]. destruct H2 as [L2 H2]. split; [done|]. intros n u r Hn Hu Hr HS2. apply H2; try done. destruct HS2 as [?|(a' & Ha' & ?)]; [left; by left|]. apply elem_of_cons in Ha' as [-> |Ha']; [left; by right|right; by exists a'].
  Qed.
  Lemma gather_dof_ok len n u S buf : nd * nc <= len -> n < nn -> u < nu -> dird (dof (n * nu + u)) = false -> filled S len buf ->
    exists buf', gather_dof border c x nc nn nu (map dof (seq 0 nd)) n u buf = Ok buf' /\ filled (fun n' u' r' => S n' u' r' \/ (n' = n /\ u' = u)) len buf'.
  Proof using Hx Hs Hj.
    intros Hlen Hn Hu Hd HS. unfold gather_dof. assert (Hi : n * nu + u < nd) by (unfold n_dofs; nia). destruct Hj as [_ Hdof]. destruct (Hdof _ Hi) as (l & El & Hl).
    destruct (loop_ok (fun r dest => d ← rd (map dof (seq 0 nd)) (n * nu + u); v ← x_at border c x d r; wr dest (r * (nu * nn) + u * nn + n) v) (fun r n' u' r' => n' = n /\ u' = u /\ r' = r) len (seq 0 nc)) with (S := S) (buf := buf) as (buf' & E & L & H); [|done|].
    - intros r S' b Hr%elem_of_seq HS'. rewrite (rd_ok _ _ _ (dofs_at_seq _ Hi)), bind_ok, El, x_at_ok, bind_ok by (done || lia). apply write_ok; try done; [lia|]. unfold xl. by rewrite Hd, El.
    - exists buf'. split; [done|]. split; [done|]. intros n' u' r' Hn' Hu' Hr' [HS'|[-> ->]]; apply H; try done; [by left|]. right. exists r'. split; [apply elem_of_seq; lia|done].
  Qed.
  Lemma gatherSumFact_ok info buf : (forall node, node < nn -> dir_of info node = Ok (dirs node)) -> (default 0 (last info.2) = 0 -> forall node, node < nn -> dirs node = []) -> nd * nc <= length buf ->
    exists buf', gatherSumFact zero border c x nc nn nu (map dof (seq 0 nd)) info buf = Ok buf' /\ length buf' = length buf /\ forall J u r, J < nn -> u < nu -> r < nc -> buf' !! (J + nn * (u + nu * r)) = Some (xl (J * nu + u) r).
  Proof using Hx Hs Hj.
    intros Hinfo Hlast Hlen. set (len := length buf) in *. assert (H0 : filled (fun _ _ _ => False) len buf) by (split; [done|]; by intros).
    assert (Hgoal : exists buf', gatherSumFact zero border c x nc nn nu (map dof (seq 0 nd)) info buf = Ok buf' /\ filled (fun n u r => n < nn /\ u < nu /\ r < nc) len buf').
    2: { destruct Hgoal as (buf' & E & L & H). exists buf'. split; [done|]. split; [done|]. intros J u r HJ Hu Hr. rewrite <- H by done. f_equal. unfold idx. nia. }
    assert (Hdird : forall n u, u < nu -> u ∈ dirs n <-> dird (dof (n * nu + u)) = true). { intros n u Hu. unfold dirs. rewrite filter_In', elem_of_seq. naive_solver lia. }
    unfold gatherSumFact. destruct (Nat.eqb_spec (default 0 (last info.2)) 0) as [E0|E0].
    - destruct (loop_ok (fun node => for_each (fun u => gather_dof border c x nc nn nu (map dof (seq 0 nd)) node u) (seq 0 nu)) (fun node n u r => n = node /\ u < nu) len (seq 0 nn)) with (S := fun _ _ _ : nat => False) (buf := buf) as (buf' & E & L & H); [|done|].
      + intros node S b Hnode%elem_of_seq HS. destruct (loop_ok (fun u => gather_dof border c x nc nn nu (map dof (seq 0 nd)) node u) (fun u n u' r => n = node /\ u' = u) len (seq 0 nu)) with (S := S) (buf := b) as (b' & E & L & H); [|done|].
        * intros u S' b1 Hu%elem_of_seq HS'. apply gather_dof_ok; try done; [lia|lia|]. apply not_true_is_false. intros Hd. apply (Hdird node u) in Hd; [|lia]. rewrite (Hlast E0 node ltac:(lia)) in Hd. by apply elem_of_nil in Hd.
        * exists b'. split; [done|]. split; [done|]. intros n u r Hn Hu Hr [HS'|[-> _]]; apply H; try done; [by left|]. right. exists u. split; [apply elem_of_seq; lia|done].
      + exists buf'. split; [done|]. split; [done|]. intros n u r Hn Hu Hr _. apply H; try done. right. exists n. split; [apply elem_of_seq; lia|done].
    - destruct (loop_ok (fun node dest =>
             ds ← dir_of info node;
             dest ← for_each (fun u => gather_dof border c x nc nn nu (map dof (seq 0 nd)) node u) (set_difference (seq 0 nu) ds) dest;
             for_each (fun u => for_each (fun r dest => wr dest (r * (nu * nn) + u * nn + node) zero) (seq 0 nc)) ds dest) (fun node n u r => n = node /\ u < nu) len (seq 0 nn)) with (S := fun _ _ _ : nat => False) (buf := buf) as (buf' & E & L & H); [|done|].
      + intros node S b Hnode%elem_of_seq HS. rewrite (Hinfo node ltac:(lia)), bind_ok. rewrite others_ok.
        destruct (loop_ok (fun u => gather_dof border c x nc nn nu (map dof (seq 0 nd)) node u) (fun u n u' r => n = node /\ u' = u) len (List.filter (fun u => negb (dird (dof (node * nu + u)))) (seq 0 nu))) with (S := S) (buf := b) as (b1 & E1 & H1); [|done|].
        { intros u S' b1 Hu HS'. apply filter_In' in Hu as [Hu%elem_of_seq Hd]. apply negb_true_iff in Hd. apply gather_dof_ok; try done; lia. }
        rewrite E1, bind_ok.
        destruct (loop_ok (fun u => for_each (fun r dest => wr dest (r * (nu * nn) + u * nn + node) zero) (seq 0 nc)) (fun u n u' r => n = node /\ u' = u) len (dirs node)) with (S := fun n u r => S n u r \/ exists a, a ∈ List.filter (fun u => negb (dird (dof (node * nu + u)))) (seq 0 nu) /\ n = node /\ u = a) (buf := b1) as (b2 & E2 & L2 & H2); [|done|].
        * intros u S' b3 Hu HS'. unfold dirs in Hu. apply filter_In' in Hu as [Hu%elem_of_seq Hd].
          destruct (loop_ok (fun r dest => wr dest (r * (nu * nn) + u * nn + node) zero) (fun r n u' r' => n = node /\ u' = u /\ r' = r) len (seq 0 nc)) with (S := S') (buf := b3) as (b4 & E4 & L4 & H4); [|done|].
          -- intros r S2 b5 Hr%elem_of_seq HS2. apply write_ok; try done; [lia|lia|lia|]. unfold xl. by rewrite Hd.
          -- exists b4. split; [done|]. split; [done|]. intros n u' r Hn Hu' Hr [HS3|[-> ->]]; apply H4; try done; [by left|]. right. exists r. split; [apply elem_of_seq; lia|done].
        * exists b2. split; [done|]. split; [done|]. intros n u r Hn Hu Hr [HS3|[-> _]]; apply H2; try done; [left; by left|]. destruct (dird (dof (node * nu + u))) eqn:Ed.
          -- right. exists u. split; [by apply Hdird|done].
          -- left. right. exists u. split; [|done]. apply filter_In'. split; [apply elem_of_seq; lia|by rewrite Ed].
      + exists buf'. split; [done|]. split; [done|]. intros n u r Hn Hu Hr _. apply H; try done. right. exists n. split; [apply elem_of_seq; lia|done].
  Qed.
  Lemma scatterSumFact_ok info from y : (forall node, node < nn -> dir_of info node = Ok (dirs node)) -> (default 0 (last info.2) = 0 -> forall node, node < nn -> dirs node = []) ->
    (forall i r, i < nd -> r < nc -> from !! (i mod nu + nu * r + nu * nc * (i / nu)) = Some (y i r)) ->
    exists cells, scatterSumFact mul border c s alpha nc nn nu (map dof (seq 0 nd)) info from = Ok cells /\ cells ≡ₚ job_cells y.
  Proof using Hj.
    clear Hx Hs. intros Hinfo Hlast Hfrom.
    assert (Hone : forall node u, node < nn -> u < nu -> scatter_dof mul border c s alpha nc nu (map dof (seq 0 nd)) from node u = Ok (map (fun r => (lofs (node * nu + u), r, mul (y (node * nu + u) r) alpha)) (seq 0 nc))).
    { intros node u Hn Hu. unfold scatter_dof. assert (Hi : node * nu + u < nd) by (unfold n_dofs; nia). apply map_res_ok. intros r Hr%elem_of_seq. rewrite (rd_ok _ _ _ (dofs_at_seq _ Hi)), bind_ok. pose proof (Hfrom (node * nu + u) r Hi ltac:(lia)) as Hf. destruct (block_div node u nu Hu) as [E1 E2]. rewrite E1, E2 in Hf. replace (u + nu * r + nu * nc * node) with (node * (nu * nc) + r * nu + u) in Hf by nia. rewrite (rd_ok _ _ _ Hf), bind_ok. apply cell_ok; [done|by left]. }
    assert (Hjc : job_cells y = concat (map (fun node => concat (map (fun u => cells_of y (node * nu + u)) (seq 0 nu))) (seq 0 nn))).
    { unfold job_cells, n_dofs. rewrite <- blocks_seq, concat_map, map_map, concat_twice, map_map. f_equal. apply map_ext. intros node. by rewrite map_map. }
    assert (Hdird : forall n u, u < nu -> u ∈ dirs n <-> dird (dof (n * nu + u)) = true). { intros n u Hu. unfold dirs. rewrite filter_In', elem_of_seq. naive_solver lia. }
    unfold scatterSumFact. destruct (Nat.eqb_spec (default 0 (last info.2)) 0) as [E0|E0].
    - rewrite (map_res_ok _ (fun u => concat (map (fun node => cells_of y (node * nu + u)) (seq 0 nn)))).
      + rewrite bind_ok. eexists. split; [done|]. rewrite Hjc. apply concat_swap.
      + intros u Hu%elem_of_seq. rewrite (map_res_ok _ (fun node => cells_of y (node * nu + u))); [by rewrite bind_ok|]. intros node Hnode%elem_of_seq. rewrite Hone by lia. unfold cells_of. destruct (dird (dof (node * nu + u))) eqn:Ed; [|done]. apply Hdird in Ed; [|lia]. rewrite (Hlast E0 node ltac:(lia)) in Ed. by apply elem_of_nil in Ed.
    - rewrite (map_res_ok _ (fun node => concat (map (fun u => cells_of y (node * nu + u)) (seq 0 nu)))).
      + rewrite bind_ok. eexists. split; [done|]. by rewrite Hjc.
      + intros node Hnode%elem_of_seq. rewrite (Hinfo node ltac:(lia)), bind_ok, others_ok. rewrite (map_res_ok _ (fun u => cells_of y (node * nu + u))).
        * rewrite bind_ok. f_equal. clear. induction (seq 0 nu) as [|u l IH]; [done|]. cbn [List.filter map concat]. unfold cells_of at 2. destruct (dird (dof (node * nu + u))) eqn:Ed; cbn [negb]; [done|]. cbn [map concat]. rewrite IH. unfold cells_of at 1. by rewrite Ed.
        * intros u Hu. apply filter_In' in Hu as [Hu%elem_of_seq Hd]. apply negb_true_iff in Hd. rewrite Hone by lia. unfold cells_of. by rewrite Hd.
  Qed.
  (** The job multiplies by its matrix. *)
  Definition prod (K : nat -> nat -> F) (i r : nat) : F := Sig (seq 0 nd) (fun k => mul (K i k) (xl k r)).
  Lemma eval_job_ok K : applies zero add mul j K -> exists cells, eval_job zero mul border c s x bc alpha nc m j = Ok cells /\ cells ≡ₚ job_cells (prod K).
  Proof using Hx Hs Hj.
    intros HK. unfold eval_job. rewrite getDofs_ok, bind_ok. unfold applies in HK. destruct (j_eval j) as [ev|ev] eqn:Ev.
    - destruct gather_ok as (rows & Eg & Hrows). rewrite Eg, bind_ok. destruct (HK nc (fun i r => nth r (nth i rows []) zero)) as (y & Ey & Hy). rewrite Ey, bind_ok. rewrite scatter_job_ok. eexists. split; [done|]. unfold job_cells. assert (Heq : map (cells_of y) (seq 0 nd) = map (cells_of (prod K)) (seq 0 nd)); [|by rewrite Heq].
      apply map_ext_in. intros i Hi%elem_of_list_In%elem_of_seq. unfold cells_of. destruct (dird (dof i)); [done|]. apply map_ext_in. intros r Hr%elem_of_list_In%elem_of_seq. f_equal. f_equal. rewrite Hy by lia. unfold prod. apply Sig_ext. intros k Hk%elem_of_seq. by rewrite Hrows by lia.
    - destruct info_ok as (info & Ei & H1 & H2). cbv zeta. rewrite Ei, bind_ok. destruct (HK nc xl (gatherSumFact zero border c x nc nn nu (map dof (seq 0 nd)) info)) as (buf & Eb & Hb).
      { intros buf Hlen. by apply gatherSumFact_ok. }
      rewrite Eb, bind_ok. by apply scatterSumFact_ok.
  Qed.
  (** What the job adds to an entry. *)
  Lemma job_cells_sum y l r : r < nc -> fsum (at_cell l r (job_cells y)) = Sig (seq 0 nd) (fun i => only (dof i = Some l) (if dird (Some l) then zero else mul (y i r) alpha)).
  Proof using Rth Hj.
    clear Hx Hs. intros Hr. unfold job_cells. assert (Hgen : forall is, (forall i, i ∈ is -> i < nd) -> fsum (at_cell l r (concat (map (cells_of y) is))) = Sig is (fun i => only (dof i = Some l) (if dird (Some l) then zero else mul (y i r) alpha))); [|apply Hgen; intros i Hi%elem_of_seq; lia].
    induction is as [|i is IH]; intros His; [done|]. cbn [map concat]. rewrite at_cell_app, (fsum_app zero add (A0 zero one add mul sub opp Rth) (AA zero one add mul sub opp Rth)), Sig_cons, IH by (intros k Hk; apply His; by right). f_equal.
    destruct Hj as [_ Hd]. destruct (Hd i (His i (elem_of_list_here _ _))) as (l' & El & _). unfold cells_of, lofs. rewrite El. unfold Cond_spec.only. destruct (decide (Some l' = Some l)) as [[= ->]|Hne].
    - destruct (dird (Some l)); [done|]. assert (Hseq : forall n a, fsum (at_cell l r (map (fun r0 => (l, r0, mul (y i r0) alpha)) (seq a n))) = if decide (a <= r < a + n) then mul (y i r) alpha else zero).
      { clear -Rth. induction n as [|n IHn]; intros a; cbn [seq map]; [rewrite decide_False by lia; done|]. rewrite at_cell_cons, Nat.eqb_refl. cbn [andb]. destruct (Nat.eqb_spec a r) as [-> |Hne].
        - rewrite fsum_cons. rewrite IHn, decide_False, decide_True by lia. rewrite (AC zero one add mul sub opp Rth). apply (A0 zero one add mul sub opp Rth).
        - rewrite IHn. destruct (decide (S a <= r < S a + n)), (decide (a <= r < a + S n)); try lia; done. }
      rewrite Hseq, decide_True by lia. done.
    - destruct (dird (Some l')); [done|]. rewrite at_cell_none; [done|]. intros z Hz. apply elem_of_list_In, in_map_iff in Hz as (r0 & <- & _). cbn. congruence.
  Qed.
  Lemma job_cells_in y z : z ∈ job_cells y -> z.1.1 < lim /\ z.1.2 < nc.
  Proof using Hj.
    clear Hx Hs. intros Hz. unfold job_cells in Hz. apply elem_of_list_In, in_concat in Hz as (l & Hl & Hz). apply in_map_iff in Hl as (i & <- & Hi%elem_of_list_In%elem_of_seq). unfold cells_of in Hz. destruct (dird (dof i)); [done|]. apply in_map_iff in Hz as (r & <- & Hr%elem_of_list_In%elem_of_seq). cbn [fst snd]. split; [|lia]. destruct Hj as [_ Hd]. destruct (Hd i ltac:(lia)) as (l & El & Hl). unfold lofs. by rewrite El.
  Qed.
End job.
