From Verif Require Import Base StdAlgo Ownership_model Elem_model Elem_spec Elem_proofs Mesh_model Mesh_spec Mesh_proofs
  Prim_model Prim_spec Build_proofs Prim_proofs Square_proofs Extrude_model Extrude_spec Extrude_proofs.
Local Arguments Nat.mul : simpl never.
Local Arguments Nat.add : simpl never.
Local Arguments Nat.sub : simpl never.

(** ** Sides of first order elements *)
Section sides.
  Context {V : Type}.
  Notation el := (element V).
  Lemma sides_iff (e : el) tb s ns : el_order e = 1 -> length (el_nodes e) = nodes_per_element (el_type e) 1 ->
    Forall2 (Forall2 (fun i n => el_nodes e !! i = Some n)) (boundary_table (el_type e) 1) tb ->
    side_nodes e s ns <-> exists ns0, tb !! s = Some ns0 /\ ns ≡ₚ ns0.
  Proof.
    intros Ho Hl Htb. destruct (boundary_table (el_type e) 1 !! s) as [l|] eqn:E.
    - destruct (Forall2_lookup_l _ _ _ _ _ Htb E) as (ns0 & Hns0 & Hf).
      rewrite (side_nodes_iff e s l ns0 ns); [|by rewrite Ho|done]. rewrite Hns0. naive_solver.
    - assert (Hs : n_sides (el_type e) <= s). { rewrite <- (table_length (el_type e) 1). by apply lookup_ge_None. }
      split; [intros [Hlt _]; lia|]. intros (ns0 & Hns0 & _). apply lookup_lt_Some in Hns0. rewrite <- (Forall2_length _ _ _ Htb), table_length in Hns0. lia.
  Qed.
  Lemma quad_sides (e : el) a b c d s ns : el_type e = Quad -> el_order e = 1 -> el_nodes e = [a; b; c; d] ->
    side_nodes e s ns <-> exists ns0, [[a; b]; [c; d]; [a; c]; [b; d]] !! s = Some ns0 /\ ns ≡ₚ ns0.
  Proof.
    intros Ht Ho Hn. apply sides_iff; [done|rewrite Ht, Hn; done|]. rewrite Ht, Hn.
    replace (boundary_table Quad 1) with [[0; 1]; [2; 3]; [0; 2]; [1; 3]] by (by vm_compute). repeat constructor.
  Qed.
  Lemma hex_sides (e : el) a b c d a' b' c' d' s ns : el_type e = Hex -> el_order e = 1 -> el_nodes e = [a; b; c; d; a'; b'; c'; d'] ->
    side_nodes e s ns <-> exists ns0, [[a; b; c; d]; [a'; b'; c'; d']; [a; b; a'; b']; [c; d; c'; d']; [a; c; a'; c']; [b; d; b'; d']] !! s = Some ns0 /\ ns ≡ₚ ns0.
  Proof.
    intros Ht Ho Hn. apply sides_iff; [done|rewrite Ht, Hn; done|]. rewrite Ht, Hn.
    replace (boundary_table Hex 1) with [[0; 1; 2; 3]; [4; 5; 6; 7]; [0; 1; 4; 5]; [2; 3; 6; 7]; [0; 2; 4; 6]; [1; 3; 5; 7]] by (by vm_compute). repeat constructor.
  Qed.
  Lemma length4 {A} (l : list A) : length l = 4 -> exists a b c d, l = [a; b; c; d].
  Proof. destruct l as [|a [|b [|c [|d [|]]]]]; cbn; try lia. intros _. by eexists _, _, _, _. Qed.
  (** The sides of an extruded quadrilateral. *)
  Lemma ext_sides (N l : nat) (e e' : el) s ns : el_type e = Quad -> el_order e = 1 -> length (el_nodes e) = 4 ->
    el_type e' = Hex -> el_order e' = 1 -> el_nodes e' = shift N l (el_nodes e) ++ shift N (l + 1) (el_nodes e) ->
    side_nodes e' s ns <-> (s = 0 /\ ns ≡ₚ shift N l (el_nodes e)) \/ (s = 1 /\ ns ≡ₚ shift N (l + 1) (el_nodes e)) \/
      exists s0 ns0, s = s0 + 2 /\ side_nodes e s0 ns0 /\ ns ≡ₚ shift N l ns0 ++ shift N (l + 1) ns0.
  Proof.
    intros Ht Ho Hl Ht' Ho' Hn'. destruct (length4 _ Hl) as (a & b & c & d & Hn). rewrite Hn in *. unfold shift in *. cbn [map app] in *.
    rewrite (hex_sides _ _ _ _ _ _ _ _ _ s ns Ht' Ho' Hn'). split.
    - intros (ns0 & Hns0 & Hp). destruct s as [|[|s]]; [left|right; left|right; right].
      + injection Hns0 as <-. done.
      + injection Hns0 as <-. done.
      + exists s. destruct s as [|[|[|[|s]]]]; cbn in Hns0; try (by rewrite ?lookup_nil in Hns0); injection Hns0 as <-.
        * exists [a; b]. split; [lia|]. split; [apply (quad_sides _ _ _ _ _ _ _ Ht Ho Hn); by exists [a; b]|done].
        * exists [c; d]. split; [lia|]. split; [apply (quad_sides _ _ _ _ _ _ _ Ht Ho Hn); by exists [c; d]|done].
        * exists [a; c]. split; [lia|]. split; [apply (quad_sides _ _ _ _ _ _ _ Ht Ho Hn); by exists [a; c]|done].
        * exists [b; d]. split; [lia|]. split; [apply (quad_sides _ _ _ _ _ _ _ Ht Ho Hn); by exists [b; d]|done].
    - intros [[-> Hp]|[[-> Hp]|(s0 & ns0 & -> & Hs & Hp)]]; [by eexists|by eexists|].
      apply (quad_sides _ _ _ _ _ _ _ Ht Ho Hn) in Hs as (n1 & Hn1 & Hp1). exists (map (fun n => l * N + n) n1 ++ map (fun n => (l + 1) * N + n) n1). split.
      + destruct s0 as [|[|[|[|s0]]]]; cbn in Hn1; try (by rewrite ?lookup_nil in Hn1); injection Hn1 as <-; done.
      + by rewrite Hp, Hp1.
  Qed.
End sides.

Section extrude.
  Context {C : Type}.
  Notation pt := (C * C * C)%type.
  Notation el := (element pt).
  Context (m : dmap (domain pt)) (N : nat) (bnds : list nat) (zs : list C) (z0 : C) (ib fr : nat)
    (HP : plane_mesh m N bnds) (Hz : 1 < length zs) (Hib : ib ∉ m.*1) (Hfr : fr ∉ m.*1)
    (st : build pt) (Hb : built (dim_of m) (cmds m N zs z0 ib fr) st).
  Notation L := (length zs - 1).
  Notation tags := (tags m zs).
  Notation item_of := (item_of N zs z0 ib fr).
  Lemma elems_tag id e' : in_domain st.1 id e' <-> exists k t, tags !! k = Some t /\ it_dom (item_of t) = id /\ e' = it_el (item_of t) k.
  Proof.
    rewrite (b_elems _ _ _ Hb id e'). rewrite (puts_cmds m N zs z0 ib fr). split.
    - intros (k & i & Hk & Hi & ->). change (map item_of tags) with (item_of <$> tags) in Hk. rewrite list_lookup_fmap in Hk.
      destruct (tags !! k) as [t|] eqn:E; [|done]. injection Hk as <-. by exists k, t.
    - intros (k & t & Hk & Hi & ->). exists k, (item_of t). split; [|done]. change (map item_of tags) with (item_of <$> tags). by rewrite list_lookup_fmap, Hk.
  Qed.
  Lemma tag_elem t : t ∈ tags -> exists k, tags !! k = Some t /\ in_domain st.1 (it_dom (item_of t)) (it_el (item_of t) k).
  Proof. intros Ht. apply elem_of_list_lookup in Ht as [k Hk]. exists k. split; [done|]. apply elems_tag. by exists k, t. Qed.
  Lemma in_shift l ns x : x ∈ shift N l ns <-> exists n, n ∈ ns /\ x = l * N + n.
  Proof. unfold shift. rewrite (elem_of_list_fmap (fun n => l * N + n)). naive_solver. Qed.
  Lemma node_lt id e n : in_domain m id e -> n ∈ el_nodes e -> n < N.
  Proof. intros He Hn. apply (pm_nodes _ _ _ HP). exists e. split; [by exists id|done]. Qed.
  Lemma ext_nodes x : is_node st.1 x <-> x < length zs * N.
  Proof.
    split.
    - intros (e' & [id He'] & Hx). apply elems_tag in He' as (k & [[i e] kd] & Hk & Hi & ->). apply elem_of_list_lookup_2 in Hk.
      apply (tags_elem m N bnds zs HP Hz) in Hk as [Hd Hkd]. assert (Hlt := fun n => node_lt i e n Hd). destruct kd as [l| |]; cbn [it_el el_nodes item_of it_nodes] in Hx.
      + apply elem_of_app in Hx as [Hx|Hx]; apply in_shift in Hx as (n & Hn%Hlt & ->); nia.
      + apply in_shift in Hx as (n & Hn%Hlt & ->); nia.
      + apply in_shift in Hx as (n & Hn%Hlt & ->); nia.
    - intros Hx. assert (HN : N <> 0) by (intros ->; lia). pose proof (Nat.div_mod x N HN) as Hdm. pose proof (Nat.mod_upper_bound x N HN) as Hm.
      destruct (proj2 (pm_nodes _ _ _ HP (x `mod` N)) Hm) as (e & [id He] & Hn).
      assert (Hq : x / N < length zs) by (apply Nat.div_lt_upper_bound; lia).
      destruct (decide (x / N < L)) as [Hlt|Hge].
      + destruct (tag_elem (id, e, Layer (x / N))) as (k & _ & Hk); [by apply (tags_elem m N bnds zs HP Hz)|]. eexists. split; [by eexists|].
        cbn [it_el el_nodes item_of it_nodes]. apply elem_of_app. left. apply in_shift. exists (x `mod` N). split; [done|]. lia.
      + destruct (tag_elem (id, e, Layer (x / N - 1))) as (k & _ & Hk); [apply (tags_elem m N bnds zs HP Hz); split; [done|lia]|]. eexists. split; [by eexists|].
        cbn [it_el el_nodes item_of it_nodes]. apply elem_of_app. right. apply in_shift. exists (x `mod` N). split; [done|]. replace (x / N - 1 + 1) with (x / N) by lia. lia.
  Qed.
  Lemma quad_of id e : in_domain m id e -> el_type e <> Line -> el_type e = Quad /\ el_order e = 1 /\ length (el_nodes e) = 4.
  Proof.
    intros He Ht. destruct (pm_flat _ _ _ HP e) as [Hl|Hq]; [by exists id|done|]. destruct (typed_in m N bnds HP id e He) as (Ho & [Hn _] & _). rewrite Ho, Hq in Hn. done.
  Qed.
  (** Elements of the boundaries in the extruded mesh. *)
  Lemma bnd_cases id b' : id ∈ bnds ++ [ib; fr] -> in_domain st.1 id b' ->
    exists k t, tags !! k = Some t /\ b' = it_el (item_of t) k /\ it_dom (item_of t) = id /\
      let '(i, e, kd) := t in in_domain m i e /\ match kd with Layer l => i = id /\ id ∈ bnds /\ l < L | _ => el_type e <> Line end.
  Proof.
    intros Hid He'. apply elems_tag in He' as (k & [[i e] kd] & Hk & Hi & ->). exists k, (i, e, kd). split; [done|]. split; [done|]. split; [done|].
    apply elem_of_list_lookup_2 in Hk. apply (tags_elem m N bnds zs HP Hz) in Hk as [Hd Hkd]. split; [done|]. destruct kd as [l| |]; [|done|done].
    cbn [item_of it_dom] in Hi. subst i. split; [done|]. split; [|done]. apply elem_of_app in Hid as [Hid|Hid]; [done|]. exfalso.
    apply (in_keys m) in Hd. rewrite !elem_of_cons, elem_of_nil in Hid. destruct Hid as [-> |[-> |[]]]; done.
  Qed.
  Lemma ext_attached id b' : id ∈ bnds ++ [ib; fr] -> in_domain st.1 id b' -> exists e s, attached st.1 b' e s.
  Proof.
    intros Hid He'. destruct (bnd_cases id b' Hid He') as (k & [[i e] kd] & Hk & -> & Hi & Hd & Hkd). destruct kd as [l| |].
    - destruct Hkd as (-> & Hbn & Hl). destruct (pm_bnd _ _ _ HP id e Hbn Hd) as (p & s & (ip & Hp) & Hdim & Hside).
      assert (Ht : el_type e = Line /\ el_type p <> Line). { destruct (pm_flat _ _ _ HP e) as [H1|H1]; [by exists id| |]; destruct (pm_flat _ _ _ HP p) as [H2|H2]; try (by exists ip); rewrite H1, H2 in Hdim; try (cbn in Hdim; lia). by rewrite H1, H2. }
      destruct Ht as [Hte Htp]. destruct (quad_of _ _ Hp Htp) as (Htq & Hpo & Hpn).
      destruct (tag_elem (ip, p, Layer l)) as (kp & _ & Hpk); [by apply (tags_elem m N bnds zs HP Hz)|].
      eexists _, (s + 2). split; [by eexists|]. split; [cbn [it_el el_type item_of it_type]; by rewrite Hte, Htq|].
      apply side_of_iff in Hside as (ns & Hs & Hnp). apply side_of_iff. exists (shift N l ns ++ shift N (l + 1) ns). split.
      + apply (ext_sides N l p); [done|done|done|cbn [it_el el_type item_of it_type]; by rewrite Htq|done|done|]. right; right. by exists s, ns.
      + cbn [it_el el_nodes item_of it_nodes]. unfold shift. by rewrite Hnp.
    - destruct (quad_of _ _ Hd Hkd) as (Htq & Ho & Hn). destruct (tag_elem (i, e, Layer 0)) as (kp & _ & Hpk); [apply (tags_elem m N bnds zs HP Hz); split; [done|lia]|].
      eexists _, 0. split; [by eexists|]. split; [cbn [it_el el_type item_of it_type]; by rewrite Htq|].
      apply side_of_iff. exists (shift N 0 (el_nodes e)). split; [|done].
      apply (ext_sides N 0 e); [done|done|done|cbn [it_el el_type item_of it_type]; by rewrite Htq|done|done|]. by left.
    - destruct (quad_of _ _ Hd Hkd) as (Htq & Ho & Hn). destruct (tag_elem (i, e, Layer (L - 1))) as (kp & _ & Hpk); [apply (tags_elem m N bnds zs HP Hz); split; [done|lia]|].
      eexists _, 1. split; [by eexists|]. split; [cbn [it_el el_type item_of it_type]; by rewrite Htq|].
      apply side_of_iff. exists (shift N L (el_nodes e)). split; [|done].
      apply (ext_sides N (L - 1) e); [done|done|done|cbn [it_el el_type item_of it_type]; by rewrite Htq|done|done|]. right; left. split; [done|]. by replace (L - 1 + 1) with L by lia.
  Qed.
  Lemma ext_keys id : id ∈ st.1.*1 <-> id ∈ m.*1 \/ exists t, t ∈ tags /\ it_dom (item_of t) = id.
  Proof.
    rewrite (b_ids _ _ _ Hb id). rewrite (elem_of_list_fmap c_dom). split.
    - intros (c & -> & Hc). destruct c as [i|it].
      + left. unfold cmds in Hc. apply elem_of_concat in Hc as (w & Hw & Hw2). apply (elem_of_list_fmap (cmds_of m N zs z0 ib fr)) in Hw2 as (j & -> & Hj).
        unfold cmds_of in Hw. apply elem_of_cons in Hw as [Heq|Hw]; [injection Heq as ->; done|]. apply (elem_of_list_fmap (fun t => Put (item_of t))) in Hw as (t & Heq & _). done.
      + right. assert (Hp : it ∈ puts (cmds m N zs z0 ib fr)) by (apply elem_of_list_omap; by exists (Put it)). rewrite (puts_cmds m N zs z0 ib fr) in Hp.
        apply (elem_of_list_fmap item_of) in Hp as (t & -> & Ht). by exists t.
    - intros [Hid|(t & Ht & <-)].
      + exists (Touch id). split; [done|]. unfold cmds. apply elem_of_concat. exists (cmds_of m N zs z0 ib fr id). split; [left|]. apply (elem_of_list_fmap (cmds_of m N zs z0 ib fr)). by exists id.
      + assert (Hp : item_of t ∈ puts (cmds m N zs z0 ib fr)). { rewrite (puts_cmds m N zs z0 ib fr). apply (elem_of_list_fmap item_of). by exists t. }
        unfold puts in Hp. apply elem_of_list_omap in Hp as ([|it] & Hc & Heq); [done|]. injection Heq as <-. by exists (Put it).
  Qed.
  Lemma dom_elem id d e : StronglySorted lt st.1.*1 -> (id, d) ∈ st.1 -> in_domain st.1 id e -> exists v, v ∈ d_els d /\ e ∈ v.
  Proof.
    intros Hs Hd (d' & v & Hd' & Hv & He). apply (dm_find_sorted_elem _ _ _ Hs) in Hd, Hd'. rewrite Hd in Hd'. injection Hd' as <-. by exists v.
  Qed.
  Lemma ext_parents : parents_exist st.1 (bnds ++ [ib; fr]).
  Proof.
    intros id d Hid Hd. assert (Hkey : id ∈ st.1.*1) by (apply elem_of_list_fmap; by exists (id, d)).
    assert (Hex : exists b', in_domain st.1 id b').
    { apply ext_keys in Hkey as [Hkey|(t & Ht & <-)].
      - assert (Hbn : id ∈ bnds). { apply elem_of_app in Hid as [Hid|Hid]; [done|]. exfalso. rewrite !elem_of_cons, elem_of_nil in Hid. destruct Hid as [-> |[-> |[]]]; done. }
        apply elem_of_list_fmap in Hkey as ([i d0] & -> & Hd0). destruct (pm_some _ _ _ HP i d0 Hbn Hd0) as (e & He).
        destruct (tag_elem (i, e, Layer 0)) as (k & _ & Hk); [apply (tags_elem m N bnds zs HP Hz); split; [done|lia]|]. by eexists.
      - destruct (tag_elem t Ht) as (k & _ & Hk). by eexists. }
    destruct Hex as (b' & Hb'). destruct (ext_attached id b' Hid Hb') as (p & s & (ip & Hp) & Hdim & _).
    pose proof (b_typed _ _ _ Hb) as Hty. rewrite Forall_forall in Hty. destruct (Hty _ Hd) as [_ Hdd]. cbn [snd] in Hdd.
    destruct (dom_elem id d b' (b_keys _ _ _ Hb) Hd Hb') as (v & Hv & Hbv). exists (native_dim (el_type b')). split; [by apply (Hdd v)|].
    destruct Hp as (dp & vp & Hdp & Hvp & Hpv). exists ip, dp. split; [done|]. destruct (Hty _ Hdp) as [_ Hdd']. cbn [snd] in Hdd'. rewrite (Hdd' vp p Hvp Hpv). by rewrite Hdim.
  Qed.
  Lemma ext_finish sched : (forall l, sched l ≡ₚ l) -> exists so bv, make_mesh1 sched st.1 (bnds ++ [ib; fr]) = Ok (mk_mesh st.1 so bv) /\
    so_shared so = [] /\ (forall x, isOwned so x = true <-> x < length zs * N) /\ numOwned so = length zs * N /\
    StronglySorted lt bv.*1 /\ forall id, id ∈ bv.*1 <-> id ∈ bnds ++ [ib; fr].
  Proof.
    intros Hs. pose proof (b_valid _ _ _ Hb) as Hv. pose proof (mesh1_ok [1] sched st.1 (bnds ++ [ib; fr]) 0 (length zs * N) Hv Hs) as Hm.
    assert (Hnd : NoDup st.1.*1) by (apply strict_nodup, Hv).
    destruct (init_ok [1] sched st.1 (bnds ++ [ib; fr]) Hv Hs) as [(r & Hr & H1 & H2 & H3)|[Hr (id & Hid & Ht)]].
    - rewrite Hr in Hm. destruct Hm as (so & Hm & Hsh & Ho & Hn). { intros x. rewrite ext_nodes. lia. }
      exists so, r. split; [done|]. split; [done|]. split; [|done]. intros x. by rewrite Ho, ext_nodes.
    - exfalso. destruct (proj2 (views_ok_iff [1] sched st.1 [id] Hv Hs)) as (views & Hviews); [|congruence]. split.
      + intros id' d Hid' Hd. apply elem_of_list_singleton in Hid' as ->. by apply (ext_parents id d).
      + intros b Hbb. apply visit_elem in Hbb as (id' & Hid' & Hbb); [|done]. apply elem_of_list_singleton in Hid' as ->. by eapply ext_attached.
  Qed.
End extrude.
