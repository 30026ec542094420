From Verif Require Import Base StdAlgo Ownership_model Elem_model Elem_spec Elem_proofs Mesh_model Mesh_spec Mesh_proofs Prim_model Prim_spec Build_proofs.
Local Arguments Nat.mul : simpl never.
Local Arguments Nat.add : simpl never.
Local Arguments Nat.sub : simpl never.

Section gen.
  Context {V : Type}.
  Notation el := (element V).
  Lemma for_each_exec {A} (f : A -> build V -> res (build V)) (g : A -> list (cmd V)) l st :
    (forall a st, a ∈ l -> f a st = for_each exec (g a) st) -> for_each f l st = for_each exec (concat (map g l)) st.
  Proof.
    revert st. induction l as [|a l IH]; intros st H; [done|]. cbn [for_each map concat]. rewrite for_each_app.
    rewrite (H a st) by left. destruct (for_each exec (g a) st) as [st'| |]; [|done|done]. cbn. apply IH. intros b st'' Hb. apply H. by right.
  Qed.
  Lemma nodup_concat_map {A B} (g : A -> list B) (l : list A) : NoDup l -> (forall a, a ∈ l -> NoDup (g a)) ->
    (forall a b x, a ∈ l -> b ∈ l -> x ∈ g a -> x ∈ g b -> a = b) -> NoDup (concat (map g l)).
  Proof.
    induction 1 as [|a l Hn Hnd IH]; intros H1 H2; [constructor|]. cbn [map concat]. apply NoDup_app. split; [apply H1; left|]. split.
    - intros x Hx Hx2. apply elem_of_concat in Hx2 as (w & Hw & Hw2). apply (elem_of_list_fmap g) in Hw2 as (b & -> & Hb).
      assert (a = b) as -> by (eapply H2; [left|by right|done|done]). done.
    - apply IH; [intros b Hb; apply H1; by right|]. intros b c x Hb Hc. apply H2; by right.
  Qed.
  (** Sides through the table. *)
  Lemma Forall2_perm_l {A B} (R : A -> B -> Prop) l1 l2 k1 : l1 ≡ₚ l2 -> Forall2 R l1 k1 -> exists k2, Forall2 R l2 k2 /\ k1 ≡ₚ k2.
  Proof.
    intros Hp. revert k1. induction Hp as [|x l1 l2 _ IH|x y l|l1 l2 l3 _ IH1 _ IH2]; intros k1 H.
    - inversion H; subst. by exists [].
    - inversion H as [|? b ? k Hx Hr]; subst. destruct (IH _ Hr) as (k2 & H2 & Hp2). exists (b :: k2). split; constructor; done.
    - inversion H as [|? b ? k Hx Hr]; subst. inversion Hr as [|? c ? k' Hy Hr']; subst. exists (c :: b :: k'). split; [by repeat constructor|constructor].
    - destruct (IH1 _ H) as (k2 & H2 & Hp2). destruct (IH2 _ H2) as (k3 & H3 & Hp3). exists k3. split; [done|]. by rewrite Hp2.
  Qed.
  Lemma Forall2_fun {A B} (f : A -> option B) l k1 k2 : Forall2 (fun a b => f a = Some b) l k1 -> Forall2 (fun a b => f a = Some b) l k2 -> k1 = k2.
  Proof. intros H. revert k2. induction H as [|a b l k Hab _ IH]; intros k2 H2; inversion H2; subst; [done|]. f_equal; [congruence|auto]. Qed.
  Lemma side_nodes_iff (e : el) s l ns0 ns : boundary_table (el_type e) (el_order e) !! s = Some l ->
    Forall2 (fun i n => el_nodes e !! i = Some n) l ns0 -> side_nodes e s ns <-> ns ≡ₚ ns0.
  Proof.
    intros Hl H0. destruct (side_table_ok _ _ _ _ Hl) as [Hsort Hin]. split.
    - intros (_ & inds & Hnd & Hi & Hf). assert (Hp : inds ≡ₚ l).
      { apply NoDup_Permutation; [done|by apply strict_nodup|]. intros i. by rewrite Hi, Hin. }
      destruct (Forall2_perm_l _ _ _ _ Hp Hf) as (k & Hk & ->). by rewrite (Forall2_fun _ _ _ _ Hk H0).
    - intros Hp. symmetry in Hp.
      destruct (Forall2_perm_l (fun n i => el_nodes e !! i = Some n) ns0 ns l Hp) as (inds & Hk & Hp2); [by apply Forall2_flip|].
      split; [rewrite <- (table_length _ (el_order e)); by eapply lookup_lt_Some|]. exists inds. split; [rewrite <- Hp2; by apply strict_nodup|]. split; [intros i; by rewrite <- Hp2, Hin|by apply Forall2_flip].
  Qed.
  Lemma side_of_iff (b e : el) s : side_of b e s <-> exists ns, side_nodes e s ns /\ el_nodes b ≡ₚ ns.
  Proof. unfold side_of, side_nodes. naive_solver. Qed.

  (** Making the mesh from the finished map. *)
  Lemma finish sched shuffle (m : dmap (domain V)) n ids :
    valid_doms [1] m -> (forall l, sched l ≡ₚ l) -> (forall l, shuffle l ≡ₚ l) -> parents_exist m ids ->
    (forall b id, id ∈ ids -> in_domain m id b -> exists e s, attached m b e s) -> (forall i, is_node m i -> i < n) ->
    exists so bnds, make_mesh2 sched shuffle m 0 n ids = Ok (mk_mesh m so bnds) /\ so_begin so = 0 /\ so_end so = n /\ so_shared so = [] /\
      StronglySorted lt bnds.*1 /\ forall id, id ∈ bnds.*1 <-> id ∈ ids.
  Proof.
    intros Hv Hs Hsh Hpar Hatt Hn. pose proof (mesh2_ok [1] sched shuffle m 0 n ids Hv Hs Hsh) as Hm.
    assert (Hnd : NoDup m.*1) by (apply strict_nodup, Hv).
    destruct (init_ok [1] sched m ids Hv Hs) as [(r & Hr & H1 & H2 & H3)|[Hr (id & Hid & Ht)]].
    - rewrite Hr in Hm. destruct Hm as (so & Hm & Hb & He & Hss & Hin). exists so, r. split; [done|]. split; [done|]. split; [done|]. split; [|done].
      destruct (so_shared so) as [|x l]; [done|]. exfalso. destruct (proj1 (Hin x) ltac:(left)) as [Hx Hlt]. apply Hn in Hx. lia.
    - exfalso. destruct (proj2 (views_ok_iff [1] sched m [id] Hv Hs)) as (views & Hviews); [|congruence]. split.
      + intros id' d Hid' Hd. apply elem_of_list_singleton in Hid' as ->. by apply (Hpar id d).
      + intros b Hb. apply visit_elem in Hb as (id' & Hid' & Hb); [|done]. apply elem_of_list_singleton in Hid' as ->. by eapply Hatt.
  Qed.
End gen.

(** Conformity from the combinatorics of cells and faces. *)
Section conf.
  Context {V F K : Type} (its : list (item V)) (m : dmap (domain V)) (dom : nat) (bnds : list nat) (fnodes : F -> list nat)
    (valid onb : F -> Prop) (inK : K -> Prop) (cell : K -> item V) (sf : K -> nat -> F) (nS : nat) (bitem : F -> item V)
    (Hel : forall id e, in_domain m id e <-> exists k i, its !! k = Some i /\ it_dom i = id /\ e = it_el i k)
    (Hnd : NoDup its)
    (Hcell : forall i, i ∈ its /\ it_dom i = dom <-> exists c, inK c /\ i = cell c)
    (Hcinj : forall c c', inK c -> inK c' -> cell c = cell c' -> c = c')
    (Hside : forall c k s ns, inK c -> side_nodes (it_el (cell c) k) s ns <-> s < nS /\ ns ≡ₚ fnodes (sf c s))
    (Hsv : forall c s, inK c -> s < nS -> valid (sf c s))
    (Hbnd : forall i, i ∈ its /\ it_dom i ∈ bnds <-> exists f, onb f /\ i = bitem f)
    (Hbn : forall f, it_nodes (bitem f) = fnodes f) (Hbv : forall f, onb f -> valid f)
    (Hinj : forall f g, valid f -> valid g -> fnodes f ≡ₚ fnodes g -> f = g).
  Definition shared_by (f : F) (c : K) (s : nat) : Prop := inK c /\ s < nS /\ sf c s = f.
  Context (Hcomb : forall c s, inK c -> s < nS ->
     (exists c' s', ~ (c' = c /\ s' = s) /\ shared_by (sf c s) c' s' /\ ~ onb (sf c s) /\
        forall c2 s2, shared_by (sf c s) c2 s2 -> (c2 = c /\ s2 = s) \/ (c2 = c' /\ s2 = s')) \/
     (onb (sf c s) /\ forall c2 s2, shared_by (sf c s) c2 s2 -> c2 = c /\ s2 = s))
    (Hon : forall f, onb f -> exists c s, shared_by f c s).
  Lemma its_unique k k' i : its !! k = Some i -> its !! k' = Some i -> k = k'.
  Proof. intros H H'. eapply NoDup_lookup; eauto. Qed.
  Lemma has_side_iff f ns es : valid f -> ns ≡ₚ fnodes f ->
    has_side m dom ns es <-> exists k c, its !! k = Some (cell c) /\ es.1 = it_el (cell c) k /\ shared_by f c es.2.
  Proof.
    destruct es as [x1 x2]. intros Hv Hns. unfold has_side, shared_by. cbn [fst snd]. split.
    - intros [He (ns' & Hs & Hp)]. apply Hel in He as (k & i & Hk & Hi & ->). destruct (proj1 (Hcell i)) as (c & Hc & ->); [split; [by eapply elem_of_list_lookup_2|done]|].
      apply Hside in Hs as [Hlt Hs]; [|done]. exists k, c. split; [done|]. split; [done|]. split; [done|]. split; [done|].
      apply Hinj; [by apply Hsv|done|]. by rewrite <- Hs, Hp.
    - intros (k & c & Hk & He & Hc & Hlt & Hf). rewrite He. split.
      + apply Hel. exists k, (cell c). split; [done|]. split; [|done]. apply (Hcell (cell c)). by exists c.
      + exists ns. split; [|done]. apply Hside; [done|]. split; [done|]. by rewrite Hf.
  Qed.
  Lemma has_bnd_iff f ns b : valid f -> ns ≡ₚ fnodes f ->
    has_bnd m bnds ns b <-> onb f /\ exists k, its !! k = Some (bitem f) /\ b = it_el (bitem f) k.
  Proof.
    intros Hv Hns. unfold has_bnd. split.
    - intros [(id & Hid & Hb) Hp]. apply Hel in Hb as (k & i & Hk & Hi & ->).
      destruct (proj1 (Hbnd i)) as (g & Hg & ->); [split; [by eapply elem_of_list_lookup_2|by rewrite Hi]|].
      assert (g = f) as ->. { apply Hinj; [by apply Hbv|done|]. rewrite <- Hbn, <- Hns. exact Hp. }
      split; [done|]. by exists k.
    - intros (Ho & k & Hk & ->). destruct (proj2 (Hbnd (bitem f))) as [Hin Hid]; [by exists f|]. split.
      + exists (it_dom (bitem f)). split; [done|]. apply Hel. by exists k, (bitem f).
      + cbn [it_el el_nodes]. by rewrite Hbn, Hns.
  Qed.
  Lemma cell_at c : inK c -> exists k, its !! k = Some (cell c).
  Proof. intros Hc. apply elem_of_list_lookup, (Hcell (cell c)). by exists c. Qed.
  Lemma conforming_ok : conforming m dom bnds.
  Proof.
    intros e s ns He Hs. apply Hel in He as (k & i & Hk & Hi & ->). destruct (proj1 (Hcell i)) as (c & Hc & ->); [split; [by eapply elem_of_list_lookup_2|done]|].
    apply Hside in Hs as [Hlt Hs]; [|done]. pose proof (Hsv c s Hc Hlt) as Hv.
    destruct (Hcomb c s Hc Hlt) as [(c' & s' & Hne & Hsh & Hno & Hall)|[Ho Hall]]; [left|right].
    - destruct (cell_at c' (proj1 Hsh)) as [k' Hk']. split.
      + exists (it_el (cell c') k', s'). split; [|split].
        * intros Heq. pose proof (f_equal fst Heq) as Hkk. pose proof (f_equal snd Heq) as Hss. cbn [fst snd] in Hkk, Hss. apply Hne. split; [|done].
          pose proof (f_equal el_id Hkk) as Hid. cbn in Hid. subst k'.
          apply Hcinj; [apply Hsh|done|]. congruence.
        * apply (has_side_iff _ _ _ Hv Hs). by exists k', c'.
        * intros [x1 x2] Hx. apply (has_side_iff _ _ _ Hv Hs) in Hx as (k2 & c2 & Hk2 & Hx1 & Hx2). cbn [fst snd] in *. subst x1.
          destruct (Hall _ _ Hx2) as [[-> ->]|[-> ->]]; [left; by rewrite (its_unique _ _ _ Hk2 Hk)|right; by rewrite (its_unique _ _ _ Hk2 Hk')].
      + intros b Hb. apply (has_bnd_iff _ _ _ Hv Hs) in Hb as [Hb _]. done.
    - split.
      + intros [x1 x2] Hx. apply (has_side_iff _ _ _ Hv Hs) in Hx as (k2 & c2 & Hk2 & Hx1 & Hx2). cbn [fst snd] in *. subst x1.
        destruct (Hall _ _ Hx2) as [-> ->]. by rewrite (its_unique _ _ _ Hk2 Hk).
      + destruct (proj2 (Hbnd (bitem (sf c s)))) as [Hin Hid]; [by exists (sf c s)|]. apply elem_of_list_lookup in Hin as [k' Hk'].
        exists (it_el (bitem (sf c s)) k'). split; [apply (has_bnd_iff _ _ _ Hv Hs); split; [done|]; by exists k'|].
        intros b Hb. apply (has_bnd_iff _ _ _ Hv Hs) in Hb as (_ & k2 & Hk2 & ->). by rewrite (its_unique _ _ _ Hk2 Hk').
  Qed.
  Lemma attached_ok : boundary_attached m dom bnds.
  Proof.
    intros id b Hid Hb. apply Hel in Hb as (k & i & Hk & Hi & ->).
    destruct (proj1 (Hbnd i)) as (f & Hf & ->); [split; [by eapply elem_of_list_lookup_2|by rewrite Hi]|].
    assert (Hns : el_nodes (it_el (bitem f) k) ≡ₚ fnodes f) by (cbn; by rewrite Hbn).
    pose proof (Hbv f Hf) as Hv. destruct (Hon f Hf) as (c & s & Hsh). destruct (cell_at c (proj1 Hsh)) as [k' Hk'].
    exists (it_el (cell c) k', s). split; [apply (has_side_iff f); [done|done|]; by exists k', c|].
    intros [x1 x2] Hx. apply (has_side_iff f) in Hx as (k2 & c2 & Hk2 & Hx1 & Hx2); [|done|done]. cbn [fst snd] in *. subst x1.
    destruct Hsh as (Hc & Hlt & Hsf). destruct (Hcomb c s Hc Hlt) as [(c' & s' & _ & _ & Hno & _)|[_ Hall]].
    - rewrite Hsf in Hno. done.
    - rewrite Hsf in Hall. destruct (Hall _ _ Hx2) as [-> ->]. by rewrite (its_unique _ _ _ Hk2 Hk').
  Qed.
  (** What makeBoundaryElementViews needs. *)
  Lemma bnd_attached D b id : id ∈ bnds -> in_domain m id b -> (forall c, inK c -> native_dim (it_type (cell c)) = D + 1) ->
    native_dim (el_type b) = D -> exists e s, attached m b e s.
  Proof.
    intros Hid Hb Hc HD. destruct (attached_ok id b Hid Hb) as ([e s] & [He (ns & Hs & Hp)] & _). cbn [fst snd] in *. exists e, s.
    split; [by exists dom|]. split.
    - apply Hel in He as (k & i & Hk & Hi & ->). destruct (proj1 (Hcell i)) as (c & Hcc & ->); [split; [by eapply elem_of_list_lookup_2|done]|].
      cbn [it_el el_type]. rewrite (Hc c Hcc). lia.
    - apply side_of_iff. exists ns. split; [done|]. by symmetry.
  Qed.
End conf.
