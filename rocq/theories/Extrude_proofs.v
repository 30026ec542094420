From Verif Require Import Base StdAlgo Ownership_model Elem_model Elem_spec Elem_proofs Mesh_model Mesh_spec Mesh_proofs
  Prim_model Prim_spec Build_proofs Prim_proofs Square_proofs Extrude_model Extrude_spec.
Local Arguments Nat.mul : simpl never.
Local Arguments Nat.add : simpl never.
Local Arguments Nat.sub : simpl never.

Lemma tail_len {A} (l : list A) : length (tail l) = length l - 1.
Proof. destruct l; cbn; lia. Qed.
Section extrude.
  Context {C : Type}.
  Notation pt := (C * C * C)%type.
  Notation el := (element pt).
  Inductive kind := Layer (l : nat) | Back | Front.
  Notation tag := (nat * el * kind)%type.
  Context (m : dmap (domain pt)) (N : nat) (bnds : list nat) (zs : list C) (z0 : C) (ib fr : nat)
    (HP : plane_mesh m N bnds) (Hz : 1 < length zs) (Hib : ib ∉ m.*1) (Hfr : fr ∉ m.*1).
  Notation L := (length zs - 1).
  Definition zat (l : nat) : C := nth l zs z0.
  Definition els (id : nat) : list el := visit_elems m [id].
  Definition ext_type (t : etype) : etype := match t with Line => Quad | _ => Hex end.
  Definition item_of (t : tag) : item pt :=
    let '(id, e, k) := t in
    match k with
    | Layer l => mk_it id (ext_type (el_type e)) (shift N l (el_nodes e) ++ shift N (l + 1) (el_nodes e))
                   (map (set_z (zat l)) (el_verts e) ++ map (set_z (zat (l + 1))) (el_verts e))
    | Back => mk_it ib (el_type e) (shift N 0 (el_nodes e)) (map (set_z (zat 0)) (el_verts e))
    | Front => mk_it fr (el_type e) (shift N L (el_nodes e)) (map (set_z (zat L)) (el_verts e))
    end.
  Definition tags_ext (id : nat) : list tag := concat (map (fun e => map (fun l => (id, e, Layer l)) (seq 0 L)) (els id)).
  Definition tags_bf (id : nat) : list tag :=
    concat (map (fun e => match el_type e with Line => [] | _ => [(id, e, Back); (id, e, Front)] end) (els id)).
  Definition tags : list tag := concat (map (fun id => tags_ext id ++ tags_bf id) m.*1).
  Definition cmds_of (id : nat) : list (cmd pt) := Touch id :: map (fun t => Put (item_of t)) (tags_ext id ++ tags_bf id).
  Definition cmds : list (cmd pt) := concat (map cmds_of m.*1).
  Lemma puts_map l : puts (map (fun t => Put (item_of t)) l) = map item_of l.
  Proof. induction l as [|t l IH]; [done|]. cbn. unfold puts in IH. by rewrite IH. Qed.
  Lemma puts_cmds : puts cmds = map item_of tags.
  Proof.
    unfold cmds, tags. clear Hib Hfr. induction m.*1 as [|id l IH]; [done|]. cbn [map concat]. rewrite puts_app, IH, (map_app item_of (tags_ext id ++ tags_bf id)). f_equal.
    exact (puts_map (tags_ext id ++ tags_bf id)).
  Qed.
  Lemma tags_elem id e k : (id, e, k) ∈ tags <-> in_domain m id e /\
    match k with Layer l => l < L | _ => el_type e <> Line end.
  Proof.
    assert (Hnd : NoDup m.*1) by (apply strict_nodup, (pm_valid _ _ _ HP)).
    assert (Hin : forall i x, x ∈ els i <-> in_domain m i x).
    { intros i x. unfold els. rewrite visit_elem by done. split; [intros (j & Hj & H); apply elem_of_list_singleton in Hj as ->; done|]. intros H. exists i. by rewrite elem_of_list_singleton. }
    unfold tags. rewrite elem_of_concat. split.
    - intros (w & Hw & Hw2). apply (elem_of_list_fmap (fun id => tags_ext id ++ tags_bf id)) in Hw2 as (i & -> & Hi). apply elem_of_app in Hw as [Hw|Hw].
      + apply elem_of_concat in Hw as (w & Hw & Hw2). apply (elem_of_list_fmap (fun e => map (fun l => (i, e, Layer l)) (seq 0 L))) in Hw2 as (x & -> & Hx).
        apply (elem_of_list_fmap (fun l => (i, x, Layer l))) in Hw as (l & Heq & Hl). injection Heq as -> -> ->. apply elem_of_seq in Hl. split; [by apply Hin|lia].
      + apply elem_of_concat in Hw as (w & Hw & Hw2). apply (elem_of_list_fmap (fun e => match el_type e with Line => [] | _ => [(i, e, Back); (i, e, Front)] end)) in Hw2 as (x & -> & Hx).
        destruct (el_type x) eqn:Et; [| |by apply elem_of_nil in Hw]; apply elem_of_cons in Hw as [Heq|Hw]; try apply elem_of_list_singleton in Hw as Heq; injection Heq as -> -> ->; rewrite Et; (split; [by apply Hin|done]).
    - intros [Hd Hk]. exists (tags_ext id ++ tags_bf id). split.
      2: { apply (elem_of_list_fmap (fun id => tags_ext id ++ tags_bf id)). exists id. split; [done|]. destruct Hd as (d & v & Hd & _). apply elem_of_list_fmap. by exists (id, d). }
      rewrite elem_of_app. destruct k as [l| |].
      + left. apply elem_of_concat. exists (map (fun l => (id, e, Layer l)) (seq 0 L)). split; [apply (elem_of_list_fmap (fun l => (id, e, Layer l))); exists l; split; [done|apply elem_of_seq; lia]|].
        apply (elem_of_list_fmap (fun e => map (fun l => (id, e, Layer l)) (seq 0 L))). exists e. split; [done|]. by apply Hin.
      + right. apply elem_of_concat. exists [(id, e, Back); (id, e, Front)]. split; [left|].
        apply (elem_of_list_fmap (fun e => match el_type e with Line => [] | _ => [(id, e, Back); (id, e, Front)] end)). exists e. split; [by destruct (el_type e)|]. by apply Hin.
      + right. apply elem_of_concat. exists [(id, e, Back); (id, e, Front)]. split; [right; left|].
        apply (elem_of_list_fmap (fun e => match el_type e with Line => [] | _ => [(id, e, Back); (id, e, Front)] end)). exists e. split; [by destruct (el_type e)|]. by apply Hin.
  Qed.

  (** The model runs these commands. *)
  Lemma zip_layers : zip (seq 0 (length zs)) (zip zs (tail zs)) = map (fun l => (l, (zat l, zat (l + 1)))) (seq 0 L).
  Proof.
    apply list_eq. intros i. change (map ?f (seq 0 L)) with (f <$> seq 0 L). rewrite list_lookup_fmap. destruct (decide (i < L)) as [Hi|Hi].
    - rewrite (lookup_seq_lt 0 L i Hi). cbn [fmap option_fmap option_map]. rewrite Nat.add_0_l.
      apply lookup_zip_with_Some. exists i, (zat i, zat (i + 1)). split; [done|]. split; [rewrite lookup_seq_lt by lia; done|].
      apply lookup_zip_with_Some. exists (zat i), (zat (i + 1)). split; [done|]. split; [apply nth_lookup_lt; lia|].
      rewrite lookup_tail. replace (S i) with (i + 1) by lia. apply nth_lookup_lt. lia.
    - rewrite (lookup_ge_None_2 (seq 0 L)) by (rewrite seq_length; lia). apply lookup_ge_None_2. rewrite !zip_with_length, tail_len, seq_length. lia.
  Qed.
  Lemma in_keys id e : in_domain m id e -> id ∈ m.*1.
  Proof. intros (d & v & Hd & _). apply elem_of_list_fmap. by exists (id, d). Qed.
  Lemma els_elem id e : e ∈ els id <-> in_domain m id e.
  Proof.
    unfold els. rewrite visit_elem by apply strict_nodup, (pm_valid _ _ _ HP). split; [intros (j & Hj & H); apply elem_of_list_singleton in Hj as ->; done|].
    intros H. exists id. by rewrite elem_of_list_singleton.
  Qed.
  Lemma shift_ok l ns : map (fun n => n + l * N) ns = shift N l ns.
  Proof. apply map_ext. intros n. lia. Qed.
  Lemma exec_layer id e l st : exec (Put (item_of (id, e, Layer l))) st = emplace id (ext_type (el_type e)) (shift N l (el_nodes e) ++ shift N (l + 1) (el_nodes e))
    (map (set_z (zat l)) (el_verts e) ++ map (set_z (zat (l + 1))) (el_verts e)) st.
  Proof. done. Qed.
  Lemma run_model st : for_each (fun id st =>
           let st := (touch id st.1, st.2) in
           st ← for_each (extrude_element zs N id) (visit_elems m [id]) st;
           for_each (make_back_front_elems (zat 0) (zat L) ib fr (length zs) N) (visit_elems m [id]) st) m.*1 st = for_each exec cmds st.
  Proof.
    apply for_each_exec. intros id [m0 k0] _. cbv zeta. unfold cmds_of. cbn [for_each exec fst snd mbind res_bind]. rewrite map_app, for_each_app.
    assert (Hext : forall st, for_each (extrude_element zs N id) (visit_elems m [id]) st = for_each exec (map (fun t => Put (item_of t)) (tags_ext id)) st).
    { intros st'. rewrite (for_each_exec _ (fun e => map (fun t => Put (item_of t)) (map (fun l => (id, e, Layer l)) (seq 0 L)))).
      - f_equal. unfold tags_ext. rewrite concat_map, map_map. done.
      - intros e st1 He. unfold extrude_element. apply els_elem in He.
        destruct (pm_flat _ _ _ HP e) as [Ht|Ht]; [by exists id| |]; rewrite Ht; cbn [native_dim Nat.ltb Nat.leb]; change (throwing_assert true) with (Ok tt); rewrite bind_ok; cbn [extruded_type];
          rewrite zip_layers, map_map.
        + generalize st1. induction (seq 0 L) as [|l ls IH]; intros st2; [done|]. cbn [map for_each]. rewrite exec_layer, Ht. cbn [ext_type].
          rewrite shift_ok. replace (map (fun n => n + N) (shift N l (el_nodes e))) with (shift N (l + 1) (el_nodes e)) by (unfold shift; rewrite map_map; apply map_ext; intros; lia).
          destruct (emplace _ _ _ _ st2) as [st3| |]; [rewrite !bind_ok; apply IH|done|done].
        + generalize st1. induction (seq 0 L) as [|l ls IH]; intros st2; [done|]. cbn [map for_each]. rewrite exec_layer, Ht. cbn [ext_type].
          rewrite shift_ok. replace (map (fun n => n + N) (shift N l (el_nodes e))) with (shift N (l + 1) (el_nodes e)) by (unfold shift; rewrite map_map; apply map_ext; intros; lia).
          destruct (emplace _ _ _ _ st2) as [st3| |]; [rewrite !bind_ok; apply IH|done|done]. }
    rewrite Hext. destruct (for_each exec _ _) as [st'| |]; [|done|done]. cbn [mbind res_bind].
    rewrite (for_each_exec _ (fun e => map (fun t => Put (item_of t)) (match el_type e with Line => [] | _ => [(id, e, Back); (id, e, Front)] end))).
    - f_equal. unfold tags_bf. rewrite concat_map, map_map. done.
    - intros e st1 He. apply els_elem in He. unfold make_back_front_elems.
      destruct (pm_flat _ _ _ HP e) as [Ht|Ht]; [by exists id| |]; rewrite Ht; [done|]. cbn [map for_each exec item_of it_dom it_type it_nodes it_verts]. rewrite Ht.
      replace (map (fun n => n + 0) (el_nodes e)) with (shift N 0 (el_nodes e)) by (apply map_ext; intros; lia).
      replace (map (fun n => n + N * L) (el_nodes e)) with (shift N L (el_nodes e)) by (apply map_ext; intros; lia).
      destruct (emplace ib _ _ _ st1) as [st2| |]; [|done|done]. cbn. by destruct (emplace fr _ _ _ st2).
  Qed.

  Definition dim_of (id : nat) : nat :=
    match dm_find id m with Some d => match d_dim d with Some x => x + 1 | None => 0 end | None => 2 end.
  Lemma typed_in id e : in_domain m id e -> el_order e = 1 /\ typed_el e /\ exists d, (id, d) ∈ m /\ d_dim d = Some (native_dim (el_type e)).
  Proof.
    intros (d & v & Hd & Hv & He). destruct (pm_valid _ _ _ HP) as [_ Hf]. rewrite Forall_forall in Hf. destruct (Hf _ Hd) as [Ht Hdim]. cbn [snd] in *.
    apply elem_of_list_lookup in Hv as [i Hi]. destruct (Forall2_lookup_r _ _ _ _ _ Ht Hi) as ([t o] & Hs & Hall). rewrite Forall_forall in Hall. destruct (Hall e He) as [Heq Hte].
    split; [|split; [done|]].
    - injection Heq as Heq1 Heq2. rewrite Heq2. rewrite slots1 in Hs. apply elem_of_list_lookup_2 in Hs. rewrite !elem_of_cons, elem_of_nil in Hs. naive_solver.
    - exists d. split; [done|]. apply (Hdim v e); [by eapply elem_of_list_lookup_2|done].
  Qed.
  Lemma items_fit i : Put i ∈ cmds -> native_dim (it_type i) = dim_of (it_dom i) /\ it_typed i.
  Proof.
    intros Hi. assert (Hp : i ∈ puts cmds). { unfold puts. apply elem_of_list_omap. by exists (Put i). }
    rewrite puts_cmds in Hp. apply (elem_of_list_fmap item_of) in Hp as ([[id e] k] & -> & Ht). apply tags_elem in Ht as [Hd Hk].
    destruct (typed_in _ _ Hd) as (Ho & [Hn Hv] & d & Hdm & Hdim). rewrite Ho in Hn.
    assert (Hf : dm_find id m = Some d) by (by apply dm_find_sorted_elem; [apply (pm_valid _ _ _ HP)|]).
    assert (Hnb : dm_find ib m = None). { destruct (dm_find ib m) eqn:E; [|done]. apply dm_find_elem in E. exfalso. apply Hib, elem_of_list_fmap. by eexists (_, _). }
    assert (Hnf : dm_find fr m = None). { destruct (dm_find fr m) eqn:E; [|done]. apply dm_find_elem in E. exfalso. apply Hfr, elem_of_list_fmap. by eexists (_, _). }
    destruct (pm_flat _ _ _ HP e) as [Hty|Hty]; [by exists id| |]; rewrite Hty in *; destruct k as [l| |]; try done; cbn [item_of it_dom it_type ext_type]; unfold dim_of, it_typed;
      cbn [item_of it_dom it_type it_nodes it_verts]; rewrite ?Hf, ?Hnb, ?Hnf, ?Hdim, ?Hty; cbn [ext_type native_dim]; unfold shift; rewrite ?app_length, ?map_length, Hn, Hv; done.
  Qed.
  Lemma ext_run : exists st, for_each exec cmds ([], 0) = Ok st /\ built dim_of cmds st.
  Proof. apply run_ok, items_fit. Qed.
End extrude.
