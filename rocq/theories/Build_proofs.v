(** Building a mesh element by element. *)
From Verif Require Import Base StdAlgo Ownership_model Elem_model Elem_proofs Mesh_model Mesh_spec Mesh_proofs Prim_model.
Local Arguments Nat.mul : simpl never.
Local Arguments Nat.add : simpl never.

Record item (V : Type) := mk_it { it_dom : nat; it_type : etype; it_nodes : list nat; it_verts : list V }.
Arguments mk_it {V} _ _ _ _.
Arguments it_dom {V} _.
Arguments it_type {V} _.
Arguments it_nodes {V} _.
Arguments it_verts {V} _.
Inductive cmd (V : Type) := Touch (id : nat) | Put (i : item V).
Arguments Touch {V} _.
Arguments Put {V} _.

Section build.
  Context {V : Type}.
  Notation el := (element V).
  Notation doms := (dmap (domain V)).
  Definition exec (c : cmd V) (st : build V) : res (build V) :=
    match c with
    | Touch id => Ok (touch id st.1, st.2)
    | Put i => emplace (it_dom i) (it_type i) (it_nodes i) (it_verts i) st
    end.
  Definition it_el (i : item V) (k : nat) : el := mk_el (it_type i) 1 (it_nodes i) (it_verts i) k.
  Definition puts (cs : list (cmd V)) : list (item V) := omap (fun c => match c with Put i => Some i | Touch _ => None end) cs.
  Definition c_dom (c : cmd V) : nat := match c with Touch id => id | Put i => it_dom i end.
  Definition it_typed (i : item V) : Prop :=
    length (it_nodes i) = nodes_per_element (it_type i) 1 /\ length (it_verts i) = nodes_per_element (it_type i) 1.
  Lemma puts_app a b : puts (a ++ b) = puts a ++ puts b.
  Proof. unfold puts. induction a as [|[]a IH]; [done| |]; cbn; rewrite IH; done. Qed.

  (** Elements of a map with distinct keys. *)
  Lemma all_elems_perm (m : doms) : NoDup m.*1 -> all_elems m ≡ₚ concat (map (fun d : domain V => concat (d_els d)) m.*2).
  Proof. intros H. rewrite all_elems_concat by done. change (m.*2) with (map snd m). by rewrite map_map. Qed.
  Lemma dm_set_vals {A} k (a : A) (m : dmap A) : StronglySorted lt m.*1 ->
    match dm_find k m with
    | Some b => exists r, m.*2 ≡ₚ b :: r /\ (dm_set k a m).*2 ≡ₚ a :: r
    | None => (dm_set k a m).*2 ≡ₚ a :: m.*2
    end.
  Proof.
    induction m as [|[k' a'] m IH]; intros Hs; [cbn; reflexivity|]. cbn [dm_find dm_set]. inversion Hs as [|? ? Hs' Hf]; subst.
    destruct (Nat.eqb_spec k k') as [->|Hk].
    - rewrite Nat.ltb_irrefl. exists m.*2. split; reflexivity.
    - destruct (Nat.ltb_spec k k').
      + destruct (dm_find k m) as [b|] eqn:E; [|done]. exfalso. apply dm_find_elem in E. rewrite Forall_forall in Hf.
        assert (k' < k); [|lia]. apply Hf, elem_of_list_fmap. by exists (k, b).
      + specialize (IH Hs'). destruct (dm_find k m) as [b|] eqn:E.
        * destruct IH as (r & H1 & H2). exists (a' :: r). cbn [fmap list_fmap snd]. rewrite H1, H2. split; constructor.
        * cbn [fmap list_fmap snd]. rewrite IH. constructor.
  Qed.

  Record built (f : nat -> nat) (cs : list (cmd V)) (st : build V) : Prop := {
    b_count : st.2 = length (puts cs);
    b_keys : StronglySorted lt st.1.*1;
    b_ids : forall id, id ∈ st.1.*1 <-> id ∈ map c_dom cs;
    b_typed : Forall (fun p => typed_domain [1] p.2 /\ dim_domain p.2) st.1;
    b_asc : ascending st.1;
    b_dims : forall id d x, (id, d) ∈ st.1 -> d_dim d = Some x -> x = f id;
    b_some : forall id d, (id, d) ∈ st.1 -> d_dim d = None <-> (forall i, i ∈ puts cs -> it_dom i <> id);
    b_elems : forall id e, in_domain st.1 id e <-> exists k i, puts cs !! k = Some i /\ it_dom i = id /\ e = it_el i k;
    b_seq : map el_id (all_elems st.1) ≡ₚ seq 0 (length (puts cs)) }.
  Definition b_valid f cs st (H : built f cs st) : valid_doms [1] st.1 := conj (b_keys _ _ _ H) (b_typed _ _ _ H).

  Lemma slots1 : slots [1] = [(Hex, 1); (Quad, 1); (Line, 1)].
  Proof. done. Qed.
  Lemma in_slots1 t : (t, 1) ∈ slots [1].
  Proof. rewrite slots1. destruct t; rewrite !elem_of_cons; auto. Qed.
  Lemma dm_find_sorted_elem {A} k (a : A) (m : dmap A) : StronglySorted lt m.*1 -> (k, a) ∈ m -> dm_find k m = Some a.
  Proof. intros H. apply elem_dm_find. by apply strict_nodup. Qed.

  Lemma exec_touch f cs st id : built f cs st -> built f (cs ++ [Touch id]) (touch id st.1, st.2).
  Proof.
    intros [H1 H2 H3 H4 H5 H6 H7 H8 H9]. assert (Hp : puts (cs ++ [Touch id]) = puts cs) by (rewrite puts_app; cbn; by rewrite app_nil_r).
    unfold touch, dm_emplace. destruct (dm_find id st.1) as [d|] eqn:E.
    - split; rewrite ?Hp; cbn [fst snd]; auto. intros i. rewrite map_app, H3, elem_of_app. cbn. rewrite elem_of_list_singleton.
      split; [auto|]. intros [?| ->]; [done|]. apply H3, elem_of_list_fmap. exists (id, d). split; [done|by apply dm_find_elem].
    - assert (Hnew : forall id' d, (id', d) ∈ dm_set id (empty_domain [1]) st.1 <-> (id' = id /\ d = empty_domain [1]) \/ (id', d) ∈ st.1).
      { intros id' d. rewrite dm_set_elem by done. split; [tauto|]. intros [?|H]; [auto|]. right. split; [|done]. intros ->.
        apply dm_find_none in E. apply E, elem_of_list_fmap. by exists (id, d). }
      split; rewrite ?Hp; cbn [fst snd]; auto.
      + by apply dm_set_sorted.
      + intros i. rewrite dm_set_keys, map_app, H3, elem_of_app. cbn. rewrite elem_of_list_singleton. tauto.
      + apply Forall_forall. intros [id' d] Hd. apply Hnew in Hd as [[-> ->]|Hd]; [apply empty_domain_ok|]. rewrite Forall_forall in H4. by apply (H4 (id', d)).
      + intros id' d v Hd Hv. apply Hnew in Hd as [[-> ->]|Hd]; [|by eapply H5]. unfold empty_domain in Hv. cbn [d_els] in Hv.
        apply (elem_of_list_fmap (fun _ => [])) in Hv as (? & -> & _). constructor.
      + intros id' d x Hd Hx. apply Hnew in Hd as [[-> ->]|Hd]; [done|by eapply H6].
      + intros id' d Hd. apply Hnew in Hd as [[-> ->]|Hd]; [|by apply H7]. cbn. split; [|done]. intros _ i Hi Heq.
        apply dm_find_none in E. apply elem_of_list_lookup in Hi as [k Hk].
        destruct (proj2 (H8 id (it_el i k))) as (d & v & Hd & _); [by exists k, i|]. apply E, elem_of_list_fmap. by exists (id, d).
      + intros id' e. rewrite <- H8. split; intros (d & v & Hd & Hv & He); exists d, v.
        * apply Hnew in Hd as [[-> ->]|Hd]; [|done]. unfold empty_domain in Hv. cbn [d_els] in Hv.
          apply (elem_of_list_fmap (fun _ => [])) in Hv as (? & -> & _). by apply elem_of_nil in He.
        * split; [|done]. apply Hnew. by right.
      + rewrite <- H9. rewrite !all_elems_perm by (apply strict_nodup; [done || by apply dm_set_sorted]).
        pose proof (dm_set_vals id (empty_domain [1]) st.1 H2) as Hv. rewrite E in Hv. rewrite Hv. done.
  Qed.
  Lemma exec_put f cs st i : built f cs st -> native_dim (it_type i) = f (it_dom i) -> it_typed i ->
    exists st', exec (Put i) st = Ok st' /\ built f (cs ++ [Put i]) st'.
  Proof.
    intros [H1 H2 H3 H4 H5 H6 H7 H8 H9] Hdim Hty. assert (Hp : puts (cs ++ [Put i]) = puts cs ++ [i]) by (by rewrite puts_app).
    cbn [exec]. unfold emplace. set (d := default (empty_domain [1]) (dm_find (it_dom i) st.1)). set (e := mk_el (it_type i) 1 (it_nodes i) (it_verts i) st.2).
    assert (Hd : typed_domain [1] d /\ dim_domain d /\ (d_dim d = None \/ d_dim d = Some (f (it_dom i))) /\
      (forall v, v ∈ d_els d -> StronglySorted lt (map el_id v)) /\
      (forall v e, v ∈ d_els d -> e ∈ v -> in_domain st.1 (it_dom i) e) /\
      (forall e, in_domain st.1 (it_dom i) e -> exists v, v ∈ d_els d /\ e ∈ v)).
    { unfold d. destruct (dm_find (it_dom i) st.1) as [d0|] eqn:E; [change (default (empty_domain [1]) (Some d0)) with d0|change (default (empty_domain [1]) None) with (empty_domain (V := V) [1])].
      - apply dm_find_elem in E. rewrite Forall_forall in H4. destruct (H4 _ E) as [Ht Hdd]. split; [done|]. split; [done|]. split; [|split; [|split]].
        + destruct (d_dim d0) as [x|] eqn:Ex; [|by left]. right. f_equal. by eapply H6.
        + intros v Hv. by eapply H5.
        + intros v e' Hv He. by exists d0, v.
        + intros e' (d1 & v & Hd1 & Hv & He). assert (d1 = d0) as ->.
          { apply dm_find_sorted_elem in E; [|done]. apply dm_find_sorted_elem in Hd1; [|done]. congruence. }
          by exists v.
      - split; [apply empty_domain_ok|]. split; [apply empty_domain_ok|]. split; [by left|]. split; [|split].
        + intros v Hv. unfold empty_domain in Hv. cbn [d_els] in Hv. apply (elem_of_list_fmap (fun _ => [])) in Hv as (? & -> & _). constructor.
        + intros v e' Hv He. unfold empty_domain in Hv. cbn [d_els] in Hv. apply (elem_of_list_fmap (fun _ => [])) in Hv as (? & -> & _). by apply elem_of_nil in He.
        + intros e' (d1 & v & Hd1 & _). exfalso. apply dm_find_none in E. apply E, elem_of_list_fmap. by exists (it_dom i, d1). }
    destruct Hd as (Hd1 & Hd2 & Hd3 & Hd4 & Hd5 & Hd6).
    pose proof (push_ok [1] d e Hd1 Hty (in_slots1 _)) as Hpush. rewrite decide_True in Hpush by (cbn [el_type e]; rewrite Hdim; done).
    destruct Hpush as (d' & Hpush & Ht' & Hdim' & Hdd' & j & v & Hj & Hv & Hels). rewrite Hpush, bind_ok. eexists. split; [done|].
    cbn [fst snd].
    assert (Hvs : forall w, w ∈ d_els d' -> w = v ++ [e] \/ w ∈ d_els d).
    { intros w Hw. rewrite Hels in Hw. apply elem_of_list_lookup in Hw as [j' Hw]. destruct (decide (j = j')) as [<-|Hn].
      - rewrite list_lookup_insert in Hw by (by eapply lookup_lt_Some). left. congruence.
      - rewrite list_lookup_insert_ne in Hw by done. right. by eapply elem_of_list_lookup_2. }
    assert (Hin' : forall e', (exists w, w ∈ d_els d' /\ e' ∈ w) <-> e' = e \/ in_domain st.1 (it_dom i) e').
    { intros e'. assert (Hc : e' ∈ concat (d_els d') <-> e' ∈ e :: concat (d_els d)) by (rewrite Hels; by rewrite concat_insert_app by done).
      rewrite elem_of_cons, !elem_of_concat in Hc. split.
      - intros (w & Hw & He). destruct (proj1 Hc) as [?|(w' & Hw' & Hin)]; [by exists w|by left|]. right. by eapply Hd5.
      - intros [->|Hx]; [destruct (proj2 Hc) as (w & ? & ?); [by left|by exists w]|]. destruct (Hd6 _ Hx) as (w & Hw & He).
        destruct (proj2 Hc) as (w' & ? & ?); [right; by exists w|by exists w']. }
    assert (Hk : st.2 = length (puts cs)) by exact H1.
    split; rewrite ?Hp; cbn [fst snd].
    - rewrite app_length. cbn [List.length]. lia.
    - by apply dm_set_sorted.
    - intros id. rewrite dm_set_keys, map_app, H3, elem_of_app. cbn. rewrite elem_of_list_singleton. tauto.
    - apply Forall_forall. intros [id' d''] Hx. apply dm_set_elem in Hx as [[-> ->]|[_ Hx]]; [|rewrite Forall_forall in H4; by apply (H4 (id', d''))|done].
      cbn [snd]. auto.
    - intros id' d'' w Hx Hw. apply dm_set_elem in Hx as [[-> ->]|[_ Hx]]; [|by eapply H5|done]. apply Hvs in Hw as [->|Hw]; [|by apply Hd4].
      rewrite map_app. cbn [map e el_id]. apply sorted_app.
      + eapply Hd4, elem_of_list_lookup_2, Hv.
      + repeat constructor.
      + intros x1 x2 Hx1 Hx2. apply elem_of_list_singleton in Hx2 as ->. apply elem_of_list_fmap in Hx1 as (e1 & -> & He1).
        assert (in_domain st.1 (it_dom i) e1) as Hx by (eapply Hd5; [eapply elem_of_list_lookup_2; exact Hv|done]).
        apply H8 in Hx as (k & i1 & Hk1 & _ & ->). cbn [it_el el_id]. apply lookup_lt_Some in Hk1. lia.
    - intros id' d'' x Hx Hx2. apply dm_set_elem in Hx as [[-> ->]|[_ Hx]]; [|by eapply H6|done]. rewrite Hdim' in Hx2. injection Hx2 as <-. done.
    - intros id' d'' Hx. apply dm_set_elem in Hx as [[-> ->]|[Hne Hx]]; [| |done].
      + rewrite Hdim'. split; [done|]. intros Hall. exfalso. apply (Hall i); [|done]. apply elem_of_app. right. left.
      + rewrite (H7 _ _ Hx). split; intros Hall i' Hi'; [apply elem_of_app in Hi' as [Hi'|Hi']; [by apply Hall|]; apply elem_of_list_singleton in Hi' as ->; congruence|].
        apply Hall, elem_of_app. by left.
    - intros id' e'. split.
      + intros (d'' & w & Hx & Hw & He). apply dm_set_elem in Hx as [[-> ->]|[Hne Hx]]; [| |done].
        * destruct (proj1 (Hin' e')) as [->|Hx]; [by exists w| |].
          -- exists (length (puts cs)), i. split; [by apply list_lookup_middle|]. split; [done|]. unfold e, it_el. by rewrite Hk.
          -- apply H8 in Hx as (k & i' & Hk' & Hi' & ->). exists k, i'. split; [|done]. by apply lookup_app_l_Some.
        * destruct (proj1 (H8 id' e')) as (k & i' & Hk' & Hi' & ->); [by exists d'', w|]. exists k, i'. split; [|done]. by apply lookup_app_l_Some.
      + intros (k & i' & Hk' & Hi' & ->). apply lookup_app_Some in Hk' as [Hk'|[Hle Hk']].
        * destruct (decide (id' = it_dom i)) as [Heq|Hne].
          -- destruct (proj2 (Hin' (it_el i' k))) as (w & Hw & He); [right; apply H8; exists k, i'; by rewrite <- Heq|].
             exists d', w. split; [|done]. apply dm_set_elem; [done|]. by left.
          -- destruct (proj2 (H8 id' (it_el i' k))) as (d'' & w & Hd & Hw & He); [by exists k, i'|]. exists d'', w. split; [|done].
             apply dm_set_elem; [done|]. by right.
        * destruct (k - length (puts cs)) as [|kk] eqn:Ek; [|done]. cbn in Hk'. injection Hk' as <-.
          assert (k = length (puts cs)) as -> by lia. destruct (proj2 (Hin' e)) as (w & Hw & He); [by left|].
          exists d', w. split; [apply dm_set_elem; [done|]; left; by rewrite Hi'|]. split; [done|]. unfold it_el. unfold e in He. by rewrite Hk in He.
    - rewrite app_length. cbn [List.length]. rewrite seq_app. cbn [seq]. rewrite <- H9.
      rewrite !all_elems_perm by (apply strict_nodup; [done || by apply dm_set_sorted]).
      assert (Hi : el_id e = 0 + length (puts cs)) by (cbn; lia). rewrite <- Hi.
      pose proof (dm_set_vals (it_dom i) d' st.1 H2) as Hvv. unfold d in *. destruct (dm_find (it_dom i) st.1) as [d0|] eqn:E; [change (default (empty_domain [1]) (Some d0)) with d0 in *|change (default (empty_domain [1]) None) with (empty_domain (V := V) [1]) in *].
      + destruct Hvv as (r & Hr1 & Hr2). rewrite Hr1, Hr2. cbn [map concat]. rewrite Hels, (concat_insert_app _ _ _ _ Hv). cbn [app map].
        apply Permutation_cons_append.
      + rewrite Hvv. cbn [map concat]. rewrite Hels, (concat_insert_app _ _ _ _ Hv).
        replace (concat (d_els (empty_domain [1]))) with (@nil el) by done. cbn [app map]. apply Permutation_cons_append.
  Qed.
  Lemma run_ok f cs : (forall i, Put i ∈ cs -> native_dim (it_type i) = f (it_dom i) /\ it_typed i) ->
    exists st, for_each exec cs ([], 0) = Ok st /\ built f cs st.
  Proof.
    intros H. destruct (for_each_inv exec (built f) cs [] ([], 0)) as (st & Hst & Hb).
    - assert (Hno : forall p : nat * domain V, p ∈ [] -> False) by (intros p Hn; by apply elem_of_nil in Hn).
      split; cbn [fst snd]; try done.
      + constructor.
      + intros id d v Hn. by apply Hno in Hn.
      + intros id d x Hn. by apply Hno in Hn.
      + intros id d Hn. by apply Hno in Hn.
      + intros id e. split; [intros (d & v & Hn & _); by apply Hno in Hn|intros (k & i & Hk & _); done].
    - intros pre a st (post & Hpost) Hb. cbn [app] in Hpost. destruct a as [id|i].
      + eexists. split; [done|]. by apply exec_touch.
      + destruct (H i) as [H1 H2]; [rewrite Hpost; apply elem_of_app; right; left|]. by apply exec_put.
    - exists st. done.
  Qed.
End build.
