(** C77: the sum over all ranks. *)
From Coq Require Import Reals Lra FunctionalExtensionality.
From Verif Require Import Base StdAlgo Ownership_model Ownership_proofs Elem_model Elem_spec Parallel_model Parallel_proofs Mesh_model Mesh_spec Mesh_proofs LocalBC_proofs Partition_spec Partition4_proofs
  Poly_spec Basis_spec Gauss_spec Geom_spec Integral_model Integral_spec Integral_proofs Integral2_proofs.
Local Open Scope R_scope.
Lemma vadd_ext (u v : vect) : (forall k, u k = v k) -> u = v.
Proof. apply functional_extensionality. Qed.
Lemma radd_assoc x y z : radd x (radd y z) = radd (radd x y) z.
Proof. destruct x, y, z; try done. cbn. f_equal. apply vadd_ext. intros k. unfold vadd. lra. Qed.
Lemma radd_comm x y : radd x y = radd y x.
Proof. destruct x, y; try done. cbn. f_equal. apply vadd_ext. intros k. unfold vadd. lra. Qed.
Lemma radd_unit x : radd (Ok vzero) x = x.
Proof. destruct x; try done. cbn. f_equal. apply vadd_0. Qed.
Lemma over_app {A} (l l' : list A) g : over (l ++ l') g = over l g + over l' g.
Proof. induction l as [|a l IH]; unfold over in *; cbn; [lra|]. rewrite IH. lra. Qed.
Lemma over_perm {A} (l l' : list A) g : l ≡ₚ l' -> over l g = over l' g.
Proof. induction 1; unfold over in *; cbn; lra. Qed.
Lemma over_concat {A} (ls : list (list A)) g : over (concat ls) g = over ls (fun l => over l g).
Proof. induction ls as [|l ls IH]; [done|]. cbn [concat]. rewrite over_app, IH. done. Qed.
Lemma over_map {A B} (h : A -> B) l g : over (map h l) g = over l (fun a => g (h a)).
Proof. induction l as [|a l IH]; [done|]. unfold over in *. cbn. by rewrite IH. Qed.
Lemma over_ext {A} (l : list A) g g' : (forall a, a ∈ l -> g a = g' a) -> over l g = over l g'.
Proof.
  induction l as [|a l IH]; intros H; [done|]. unfold over in *. cbn. rewrite IH by (intros; apply H; by right). by rewrite H by left.
Qed.
Lemma over_swap {A B} (l : list A) (l' : list B) g : over l (fun a => over l' (g a)) = over l' (fun b => over l (fun a => g a b)).
Proof.
  induction l as [|a l IH]; unfold over in *; cbn [foldr].
  - induction l' as [|b l' IH']; cbn; [done|]. rewrite <- IH'. lra.
  - rewrite IH. clear IH. induction l' as [|b l' IH']; cbn; [lra|]. rewrite <- IH'. lra.
Qed.
Lemma fold_vals {A} (f : A -> res vect) (g : A -> vect) l : (forall a, a ∈ l -> f a = Ok (g a)) -> foldl radd (Ok vzero) (map f l) = Ok (fun k => over l (fun a => g a k)).
Proof.
  rewrite (foldl_fold radd (Ok vzero) radd_assoc radd_comm radd_unit). unfold fold. induction l as [|a l IH]; intros H; [done|]. cbn [map foldr]. rewrite IH by (intros; apply H; by right). rewrite H by left. done.
Qed.
Lemma gen_sum_over l r : gen_sum Rplus l r -> r = over l (fun a => a).
Proof. intros H. apply (gen_sum_fold Rplus 0) in H; [done|intros; lra|intros; lra|intros; lra]. Qed.
Lemma visit_dom {V} (m : dmap (domain V)) ids : StronglySorted lt m.*1 -> visit_elems m ids = concat (map (dom_elems m) ids).
Proof.
  intros Hs. induction ids as [|i ids IH]; [done|]. cbn [map concat]. rewrite <- IH, (dom_elems_visit m i Hs). unfold visit_elems. cbn [map concat]. by rewrite app_nil_r.
Qed.
Lemma dom_elems_in {V} (m : dmap (domain V)) i e : e ∈ dom_elems m i <-> in_domain m i e.
Proof.
  unfold dom_elems, in_domain. rewrite elem_of_concat. split.
  - intros (l & He & Hl). apply elem_of_list_fmap in Hl as ([k d] & -> & Hk). cbn [fst snd] in He. destruct (Nat.eqb_spec k i) as [->|]; [|by apply elem_of_nil in He]. apply elem_of_concat in He as (v & He & Hv). by exists d, v.
  - intros (d & v & Hd & Hv & He). eexists. split; [|apply elem_of_list_fmap; exists (i, d); split; [done|done]]. cbn [fst snd]. rewrite Nat.eqb_refl. apply elem_of_concat. by exists v.
Qed.
Lemma valid_in {V} orders (m : dmap (domain V)) i e : valid_doms orders m -> in_domain m i e -> typed_el e /\ el_order e ∈ orders.
Proof.
  intros [_ Hf] (d & v & Hd & Hv & He). rewrite Forall_forall in Hf. destruct (Hf _ Hd) as [Ht _]. cbn [snd] in Ht. unfold typed_domain in Ht.
  apply elem_of_list_lookup in Hv as [j Hj]. destruct (Forall2_lookup_r _ _ _ _ _ Ht Hj) as (s & Hs & Hs2). rewrite Forall_forall in Hs2. destruct (Hs2 e He) as [E Hty]. split; [done|].
  apply elem_of_list_lookup_2 in Hs. unfold slots in Hs. rewrite <- E in Hs. apply elem_of_concat in Hs as (l & Hs & Hl). apply elem_of_list_fmap in Hl as (t & -> & _). apply elem_of_list_fmap in Hs as (o & Ho & Hin). by injection Ho as _ ->.
Qed.
Section ranks.
  Context (absc : nat -> list R) (ref : nat -> list (list R) * list R) (dimension n_equations : nat) (opts : options) (time : R).
  Notation el := (element (list R)).
  Context (orders : list nat) (x : mesh (list R)) (N : nat) (phi : nat -> nat) (inds : list nat) (u : nat -> nat -> R) (run : list (mesh (list R) * fields)).
  Notation parts := (map fst run).
  Hypothesis Hun : unpartitioned orders x N.
  Hypothesis Hpo : partition_of orders x N (length run) parts phi.
  Hypothesis Habsc : forall O, O ∈ orders -> (1 <= O)%nat /\ length (absc O) = S O /\ NoDup (absc O) /\ solved (q_order opts O) (ref (q_order opts O)).
  Hypothesis H3 : forall e, is_elem (m_domains x) e -> Forall (fun v => length v = 3%nat) (el_verts e).
  Hypothesis Hfields : Forall (fun yf : mesh (list R) * fields => f_own yf.2 = m_own yf.1 /\ f_inds yf.2 = inds /\ holds (f_own yf.2) (f_data yf.2) inds N phi u) run.
  Lemma good_x i e : in_domain (m_domains x) i e -> good absc ref opts e.
  Proof using Hun Habsc H3.
    intros Hi. destruct (valid_in orders _ i e (un_valid _ _ _ Hun) Hi) as [Ht Ho]. destruct (Habsc _ Ho) as (H1 & H2 & H4 & H5). split; [done|]. split; [apply H3; by exists i|]. done.
  Qed.
  Lemma nodes_x i e n : in_domain (m_domains x) i e -> n ∈ el_nodes e -> (n < N)%nat.
  Proof using Hun. intros Hi Hn. apply (un_nodes _ _ _ Hun). exists e. split; [by exists i|done]. Qed.
  Definition psi (m : nat) : nat := default 0%nat (head (List.filter (fun n => (phi n =? m)%nat) (seq 0 N))).
  Lemma psi_phi n : (n < N)%nat -> psi (phi n) = n.
  Proof using Hpo.
    intros Hn. unfold psi. assert (Hin : n ∈ List.filter (fun k => (phi k =? phi n)%nat) (seq 0 N)). { apply elem_of_list_In, filter_In. split; [apply elem_of_list_In, elem_of_seq; lia|apply Nat.eqb_refl]. }
    destruct (List.filter _ (seq 0 N)) as [|a l] eqn:E; [by apply elem_of_nil in Hin|]. cbn. assert (Ha : In a (List.filter (fun k => (phi k =? phi n)%nat) (seq 0 N))) by (rewrite E; by left).
    apply filter_In in Ha as [Ha Hb]. apply elem_of_list_In, elem_of_seq in Ha. apply Nat.eqb_eq in Hb. apply (po_inj _ _ _ _ _ _ Hpo); [lia|done|done].
  Qed.
  (** An element of a part comes from the mesh. *)
  Lemma from_x y i e' : y ∈ parts -> in_domain (m_domains y) i e' -> exists e, in_domain (m_domains x) i e /\ e' = reindex_el phi e.
  Proof using Hpo.
    intros Hy He. apply dom_elems_in in He. assert (Hin : e' ∈ concat (map (fun y => dom_elems (m_domains y) i) parts)). { apply elem_of_concat. exists (dom_elems (m_domains y) i). split; [done|]. apply (elem_of_list_fmap (fun y => dom_elems (m_domains y) i)). by exists y. }
    rewrite (po_elems _ _ _ _ _ _ Hpo i) in Hin. apply (elem_of_list_fmap (reindex_el phi)) in Hin as (e & -> & He'). exists e. split; [by apply dom_elems_in|done].
  Qed.
  Lemma fields_at yf i e : yf ∈ run -> in_domain (m_domains yf.1) i (reindex_el phi e) -> in_domain (m_domains x) i e ->
    length (f_inds yf.2) = length inds /\ getGloballyIndexed yf.2 (map phi (el_nodes e)) = Ok (vals_of inds u (el_nodes e)).
  Proof using Hun Hpo Hfields.
    intros Hy He Hx. rewrite Forall_forall in Hfields. destruct (Hfields yf Hy) as (Ho & Hi & Hh). split; [by rewrite Hi|]. assert (Hp : yf.1 ∈ parts) by (apply (elem_of_list_fmap fst); by exists yf).
    destruct (po_shared _ _ _ _ _ _ Hpo _ Hp) as [Hs Hsh]. unfold vals_of. rewrite <- Hi. rewrite <- Hi in Hh. eapply fields_ok; [|exact Hh|].
    - rewrite Ho. split; [done|]. intros n Hn. apply Hsh in Hn as [_ Hn]. apply not_true_iff_false. intros H. apply Hn. by apply isOwned_spec.
    - apply Forall_forall. intros n Hn. split; [by eapply nodes_x|]. rewrite Ho. unfold local_ids. rewrite elem_of_app.
      assert (Hin : is_node (m_domains yf.1) (phi n)). { exists (reindex_el phi e). split; [by exists i|]. cbn. apply (elem_of_list_fmap phi). by exists n. }
      destruct (decide (so_begin (m_own yf.1) <= phi n < so_end (m_own yf.1))%nat) as [H|H]; [left; apply elem_of_seq; lia|right]. by apply Hsh.
  Qed.
  Section domain.
    Context (kernel : dkernel) (ids : list nat) (locals : list (res vect)).
    Hypothesis Hlocals : Forall2 (fun (yf : mesh (list R) * fields) r => local_integral absc ref dimension opts time kernel yf.2 yf.1 ids r) run locals.
    Notation EVx := (EV absc ref dimension opts time inds u kernel).
    Notation EVy := (EV absc ref dimension opts time inds (fun f m => u f (psi m)) kernel).
    Lemma EV_reindex i e : in_domain (m_domains x) i e -> EVy (reindex_el phi e) = EVx e.
    Proof using Hun Hpo.
      intros He. unfold EV. cbn [reindex_el el_type el_order el_verts el_nodes]. replace (vals_of inds (fun f m => u f (psi m)) (map phi (el_nodes e))) with (vals_of inds u (el_nodes e)); [done|].
      unfold vals_of. rewrite map_map. apply map_ext_in. intros n Hn. apply map_ext. intros f. rewrite psi_phi; [done|]. eapply nodes_x; [exact He|]. by apply elem_of_list_In.
    Qed.
    Definition rank_sum (yf : mesh (list R) * fields) : vect := fun k => over (concat (map (dom_elems (m_domains yf.1)) ids)) (fun e => EVy e k).
    Lemma rank_ok yf r : yf ∈ run -> local_integral absc ref dimension opts time kernel yf.2 yf.1 ids r -> r = Ok (rank_sum yf).
    Proof using Hun Hpo Habsc H3 Hfields.
      intros Hy Hl. apply (mesh_reduce_ok radd (Ok vzero) radd_assoc radd_comm radd_unit) in Hl. subst r. assert (Hp : yf.1 ∈ parts) by (apply (elem_of_list_fmap fst); by exists yf).
      rewrite visit_dom by (by apply (po_valid _ _ _ _ _ _ Hpo)). apply fold_vals. intros e' He. apply elem_of_concat in He as (l & He & Hl). apply (elem_of_list_fmap (dom_elems (m_domains yf.1))) in Hl as (i & -> & _). apply dom_elems_in in He.
      destruct (from_x _ i e' Hp He) as (e & Hx & ->). destruct (fields_at yf i e Hy He Hx) as [F1 F2]. rewrite (EV_reindex i e Hx). apply element_ok; [by eapply good_x|done|done].
    Qed.
    Lemma locals_ok : locals = map Ok (map rank_sum run).
    Proof using Hun Hpo Habsc H3 Hfields Hlocals.
      rewrite map_map. pose proof rank_ok as Hr. revert Hlocals Hr. clear. generalize run. intros l Hl. induction Hl as [|yf r l rs Hl _ IH]; intros Hr; [done|]. cbn [map]. rewrite (Hr yf r) by (done || left). f_equal. apply IH. intros yf' r' Hy. apply Hr. by right.
    Qed.
    Lemma all_ok g : all_reduce n_equations locals g -> forall k, g k = if (k <? n_equations)%nat then over (concat (map (dom_elems (m_domains x)) ids)) (fun e => EVx e k) else 0.
    Proof using Hun Hpo Habsc H3 Hfields Hlocals.
      intros (ls & El & Hg) k. rewrite locals_ok in El. assert (ls = map rank_sum run) as ->. { clear -El. revert ls El. induction run as [|a l IH]; intros [|b ls] El; try done. cbn in El. injection El as <- El. cbn. f_equal. by apply IH. }
      specialize (Hg k). destruct (k <? n_equations)%nat; [|done]. apply gen_sum_over in Hg. rewrite Hg, !over_map. unfold rank_sum.
      rewrite (over_ext _ _ (fun yf => over ids (fun i => over (dom_elems (m_domains yf.1) i) (fun e => EVy e k)))) by (intros yf _; by rewrite over_concat, over_map).
      rewrite over_swap, over_concat, over_map. apply over_ext. intros i _.
      transitivity (over (concat (map (fun y => dom_elems (m_domains y) i) parts)) (fun e => EVy e k)); [by rewrite over_concat, !over_map|].
      rewrite (over_perm _ _ _ (po_elems _ _ _ _ _ _ Hpo i)), over_map. apply over_ext. intros e He. rewrite (EV_reindex i); [done|]. by apply dom_elems_in.
    Qed.
  End domain.
  Section boundary.
    Context (kernel : bkernel) (ids : list nat) (locals : list (res vect)).
    Hypothesis Hdim : (1 < dimension)%nat.
    Hypothesis Hids : forall b, b ∈ ids -> b ∈ (m_bnds x).*1.
    Hypothesis Hlocals : Forall2 (fun (yf : mesh (list R) * fields) r => local_boundary_integral absc ref dimension opts time kernel yf.2 yf.1 ids r) run locals.
    Notation SVx := (SV absc ref dimension opts time inds u kernel).
    Notation SVy := (SV absc ref dimension opts time inds (fun f m => u f (psi m)) kernel).
    Lemma SV_reindex i e s : in_domain (m_domains x) i e -> SVy (reindex_el phi e, s) = SVx (e, s).
    Proof using Hun Hpo.
      clear Hlocals. intros He. unfold SV. cbn [reindex_el el_type el_order el_verts el_nodes fst snd]. replace (vals_of inds (fun f m => u f (psi m)) (map phi (el_nodes e))) with (vals_of inds u (el_nodes e)); [done|].
      unfold vals_of. rewrite map_map. apply map_ext_in. intros n Hn. apply map_ext. intros f. rewrite psi_phi; [done|]. eapply nodes_x; [exact He|]. by apply elem_of_list_In.
    Qed.
    Definition views (y : mesh (list R)) (b : nat) : list (el * nat) := default [] (dm_find b (m_bnds y)).
    Lemma views_ok y b : y ∈ parts -> b ∈ (m_bnds x).*1 -> dm_find b (m_bnds y) = Some (views y b) /\
      exists bs, bs ≡ₚ dom_elems (m_domains y) b /\ Forall2 (fun b v => attached (m_domains y) b v.1 v.2) bs (views y b).
    Proof using Hpo.
      clear Hlocals. intros Hy Hb. destruct (po_bnds _ _ _ _ _ _ Hpo y Hy) as (Hs & Hk & Hv). apply Hk in Hb. apply elem_of_list_fmap in Hb as ([b' vs] & -> & Hin). cbn [fst].
      assert (E : dm_find b' (m_bnds y) = Some vs) by (by apply dm_find_iff). unfold views. rewrite E. cbn. split; [done|]. by apply Hv.
    Qed.
    Lemma psi_el i e : in_domain (m_domains x) i e -> reindex_el psi (reindex_el phi e) = e.
    Proof using Hun Hpo.
      clear Hlocals. intros He. destruct e as [t o ns vs ei]. unfold reindex_el. cbn. f_equal. rewrite map_map. rewrite <- (map_id ns) at 2. apply map_ext_in. intros n Hn. apply psi_phi. eapply nodes_x; [exact He|]. cbn. by apply elem_of_list_In.
    Qed.
    Lemma side_back i j b e s : in_domain (m_domains x) i b -> in_domain (m_domains x) j e -> side_of (reindex_el phi b) (reindex_el phi e) s -> side_of b e s.
    Proof using Hun Hpo.
      clear Hlocals. intros Hb He (is & ns & Hnd & Hi & Hf & Hp & Hs). cbn [reindex_el el_type el_order el_nodes] in *. exists is, (map psi ns). split; [done|]. split; [done|]. split; [|split; [|done]].
      - clear -Hf Hun Hpo He. induction Hf as [|k n is ns Hk _ IH]; cbn; constructor; [|done]. rewrite (list_lookup_fmap phi) in Hk. destruct (el_nodes e !! k) as [m|] eqn:E; [|done]. cbn in Hk. injection Hk as <-. rewrite psi_phi; [done|]. eapply nodes_x; [exact He|]. by eapply elem_of_list_lookup_2.
      - rewrite <- Hp, map_map. rewrite <- (map_id (el_nodes b)) at 1. erewrite map_ext_in; [reflexivity|]. intros n Hn. cbn. symmetry. apply psi_phi. eapply nodes_x; [exact Hb|]. by apply elem_of_list_In.
    Qed.
    Definition back (v : el * nat) : el * nat := (reindex_el psi v.1, v.2).
    (** A view of a part is a view of the mesh. *)
    Lemma view_back y b eb v : y ∈ parts -> in_domain (m_domains y) b eb -> attached (m_domains y) eb v.1 v.2 ->
      exists j, in_domain (m_domains x) j (back v).1 /\ in_domain (m_domains y) j v.1 /\ v = (reindex_el phi (back v).1, v.2) /\ attached (m_domains x) (reindex_el psi eb) (back v).1 (back v).2.
    Proof using Hun Hpo.
      clear Hlocals. destruct v as [e' s]. intros Hy Hb ([j He] & Hd & Hs). cbn [fst snd back] in *. destruct (from_x y b eb Hy Hb) as (e0 & Hx0 & ->). destruct (from_x y j e' Hy He) as (e1 & Hx1 & ->). exists j.
      rewrite (psi_el j e1 Hx1), (psi_el b e0 Hx0). split; [done|]. split; [done|]. split; [done|]. split; [by exists j|]. split; [done|]. by apply (side_back b j).
    Qed.
    Lemma rank_views yf b v : yf ∈ run -> b ∈ (m_bnds x).*1 -> v ∈ views yf.1 b -> side_integral absc ref dimension opts time kernel yf.2 v = Ok (SVy v).
    Proof using Hun Hpo Habsc H3 Hfields Hdim.
      clear Hlocals. intros Hy Hb Hv. assert (Hp : yf.1 ∈ parts) by (apply (elem_of_list_fmap fst); by exists yf). destruct (views_ok yf.1 b Hp Hb) as (_ & bs & Hbs & Hf). apply elem_of_list_lookup in Hv as [k Hk].
      destruct (Forall2_lookup_r _ _ _ _ _ Hf Hk) as (eb & Heb & Hat). assert (Hin : in_domain (m_domains yf.1) b eb) by (apply dom_elems_in; rewrite <- Hbs; by eapply elem_of_list_lookup_2).
      destruct (view_back _ _ _ _ Hp Hin Hat) as (j & Hx & Hyj & Ev & _ & _ & Hs). cbn [back fst snd] in *. rewrite Ev. rewrite Ev in Hyj. cbn [fst] in Hyj. destruct (fields_at yf j _ Hy Hyj Hx) as [F1 F2]. rewrite (SV_reindex j _ _ Hx).
      apply side_ok; [done|by eapply good_x|done| |done]. destruct Hs as (_ & _ & _ & _ & _ & _ & Hs). cbn [reindex_el el_type] in *. destruct (el_type v.1); cbn in Hs |- *; lia.
    Qed.
    Definition brank_sum (yf : mesh (list R) * fields) : vect := fun k => over ids (fun b => over (views yf.1 b) (fun v => SVy v k)).
    Lemma brank_ok yf r : yf ∈ run -> local_boundary_integral absc ref dimension opts time kernel yf.2 yf.1 ids r -> r = Ok (brank_sum yf).
    Proof using Hun Hpo Habsc H3 Hfields Hdim Hids.
      clear Hlocals. intros Hy (ps & Hf & Hg). apply (gen_sum_fold radd (Ok vzero) radd_assoc radd_comm radd_unit) in Hg. subst r. unfold fold. cbn [foldr]. rewrite radd_unit. unfold brank_sum.
      assert (Hp : yf.1 ∈ parts) by (apply (elem_of_list_fmap fst); by exists yf).
      assert (Ho : omap (fun b => dm_find b (m_bnds yf.1)) ids = map (views yf.1) ids).
      { clear Hf. induction ids as [|b l IH]; [done|]. cbn. destruct (views_ok yf.1 b Hp) as [-> _]; [apply Hids; left|]. f_equal. apply IH. intros; apply Hids. by right. }
      rewrite Ho in Hf. clear Ho. revert ps Hf. induction ids as [|b l IH]; intros ps Hf; cbn in Hf; inversion Hf as [|? p ? ps' Hpb Hrest]; subst; [done|]. cbn [foldr]. rewrite (IH ltac:(intros; apply Hids; by right) ps' Hrest).
      destruct Hpb as (vs & Hvs & Hr). apply (uv_reduce_ok radd (Ok vzero) radd_assoc radd_comm radd_unit) in Hr. rewrite (fold_vals _ SVy) in Hr.
      - subst p. cbn. f_equal. apply vadd_ext. intros k. unfold vadd. rewrite (over_perm _ _ _ Hvs). done.
      - intros v Hv. rewrite Hvs in Hv. apply (rank_views yf b); [done|apply Hids; left|done].
    Qed.
    Lemma blocals_ok : locals = map Ok (map brank_sum run).
    Proof using Hun Hpo Habsc H3 Hfields Hlocals Hdim Hids.
      rewrite map_map. pose proof brank_ok as Hr. revert Hlocals Hr. clear. generalize run. intros l Hl. induction Hl as [|yf r l rs Hl _ IH]; intros Hr; [done|]. cbn [map]. rewrite (Hr yf r) by (done || left). f_equal. apply IH. intros yf' r' Hy. apply Hr. by right.
    Qed.
    (** All views of a boundary, together. *)
    Lemma bnd_views b : b ∈ (m_bnds x).*1 -> exists W, Forall2 (fun eb v => attached (m_domains x) eb v.1 v.2) (dom_elems (m_domains x) b) W /\
      forall k, over run (fun yf => over (views yf.1 b) (fun v => SVy v k)) = over W (fun v => SVx v k).
    Proof using Hun Hpo.
      clear Hlocals Hids. intros Hb.
      assert (HL : forall l, (forall y, y ∈ l -> y ∈ parts) -> exists bs, bs ≡ₚ concat (map (fun y => dom_elems (m_domains y) b) l) /\
        Forall2 (fun eb v => exists y, y ∈ parts /\ in_domain (m_domains y) b eb /\ attached (m_domains y) eb v.1 v.2) bs (concat (map (fun y => views y b) l))).
      { induction l as [|y l IH]; intros Hl; [exists []; split; [done|by constructor]|]. destruct IH as (bs & Hbs & Hf); [intros; apply Hl; by right|]. destruct (views_ok y b ltac:(apply Hl; left) Hb) as (_ & b0 & Hb0 & Hf0). exists (b0 ++ bs). cbn [map concat]. split; [by rewrite Hb0, Hbs|].
        apply Forall2_app; [|done]. apply Forall2_same_length_lookup. apply Forall2_same_length_lookup in Hf0 as [Hlen Hlk]. split; [done|]. intros k eb v He Hv. exists y. split; [apply Hl; left|]. split; [|by eapply Hlk].
        apply dom_elems_in. rewrite <- Hb0. by eapply elem_of_list_lookup_2. }
      destruct (HL parts ltac:(done)) as (bs & Hbs & Hf). rewrite (po_elems _ _ _ _ _ _ Hpo b) in Hbs. set (L := concat (map (fun y => views y b) parts)) in *.
      assert (Hbk : map (reindex_el psi) bs ≡ₚ dom_elems (m_domains x) b).
      { rewrite Hbs, map_map. rewrite <- (map_id (dom_elems (m_domains x) b)) at 2. erewrite map_ext_in; [reflexivity|]. intros e He. cbn. apply (psi_el b). apply dom_elems_in. by apply elem_of_list_In. }
      assert (Hf2 : Forall2 (fun eb v => attached (m_domains x) eb v.1 v.2) (map (reindex_el psi) bs) (map back L)).
      { clear -Hf Hun Hpo. induction Hf as [|eb v bs L (y & Hy & Hin & Hat) _ IH]; cbn; constructor; [|done]. destruct (view_back y b eb v Hy Hin Hat) as (j & _ & _ & _ & H). exact H. }
      destruct (Permutation_Forall2 Hbk Hf2) as (W & HW & HFW). exists W. split; [done|]. intros k. rewrite <- (over_perm _ _ _ HW), over_map.
      transitivity (over L (fun v => SVy v k)); [unfold L; by rewrite over_concat, !over_map|]. apply over_ext. intros v Hv. apply elem_of_list_lookup in Hv as [q Hq]. destruct (Forall2_lookup_r _ _ _ _ _ Hf Hq) as (eb & _ & y & Hy & Hin & Hat).
      destruct (view_back y b eb v Hy Hin Hat) as (j & Hx & _ & Ev & _). rewrite Ev at 1. rewrite (SV_reindex j _ _ Hx). done.
    Qed.
    Lemma ball_ok : exists W, Forall2 (fun eb v => attached (m_domains x) eb v.1 v.2) (concat (map (dom_elems (m_domains x)) ids)) W /\
      forall g, all_reduce n_equations locals g -> forall k, g k = if (k <? n_equations)%nat then over W (fun v => SVx v k) else 0.
    Proof using Hun Hpo Habsc H3 Hfields Hlocals Hdim Hids.
      assert (HW : exists W, Forall2 (fun eb v => attached (m_domains x) eb v.1 v.2) (concat (map (dom_elems (m_domains x)) ids)) W /\ forall k, over ids (fun b => over run (fun yf => over (views yf.1 b) (fun v => SVy v k))) = over W (fun v => SVx v k)).
      { clear Hlocals. induction ids as [|b l IH]; [exists []; split; [by constructor|done]|]. destruct IH as (W & H1 & H2); [intros; apply Hids; by right|]. destruct (bnd_views b ltac:(apply Hids; left)) as (W0 & H4 & H5). exists (W0 ++ W). cbn [map concat]. split; [by apply Forall2_app|].
        intros k. rewrite over_app, <- H2, <- H5. done. }
      destruct HW as (W & HW & Hsum). exists W. split; [done|]. intros g (ls & El & Hg) k. rewrite blocals_ok in El. assert (ls = map brank_sum run) as ->. { clear -El. revert ls El. induction run as [|a l IH]; intros [|b ls] El; try done. cbn in El. injection El as <- El. cbn. f_equal. by apply IH. }
      specialize (Hg k). destruct (k <? n_equations)%nat; [|done]. apply gen_sum_over in Hg. rewrite Hg, !over_map. unfold brank_sum. by rewrite over_swap, <- Hsum.
    Qed.
  End boundary.
End ranks.
