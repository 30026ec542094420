(** Property C77: integrals and norms over distributed meshes. *)
From Coq Require Import Reals Lra FunctionalExtensionality.
From Verif Require Import Base StdAlgo Ownership_model Elem_model Elem_spec Parallel_model Parallel_proofs Helpers_props Partition2_proofs Mesh_model Mesh_spec Partition_model Partition_spec Partition_props
  Poly_spec Poly_proofs Poly_model Basis_spec Basis_model Basis_proofs Basis2_proofs Gauss_spec Gauss_model Gauss_proofs Gauss2_proofs Geom_spec Geom_model Geom_proofs Geom2_proofs SumFact_props
  Integral_model Integral_spec Integral_proofs Integral2_proofs Integral3_proofs Integral4_proofs.
Local Open Scope R_scope.
Section props.
  Context (absc : nat -> list R) (ref : nat -> list (list R) * list R) (dimension n_equations : nat) (opts : options) (time : R).
  Context (orders : list nat) (x : mesh (list R)) (N : nat) (inds : list nat) (u : nat -> nat -> R).
  Notation el := (element (list R)).
  Notation QO e := (q_order opts (el_order e)).
  (** C77.  (Partial: the first n_equations entries of the result, i.e. the first column; the
      others are not reduced, see [integral_columns_refuted].)  Every rank's integral over its part succeeds, for every schedule of the
      parallel reduction; the reduced result is the sum over all elements of the given
      domains, each counted once, of the kernel's integral over the element, which is
      computed with the fields' values and gradients and is exact for polynomials. *)
  Theorem integral_distributed_partial (phi : nat -> nat) (run : list (mesh (list R) * fields)) (kernel : dkernel) (ids : list nat) (locals : list (res vect)) :
    setting absc ref opts orders x N phi inds u run ->
    Forall2 (fun (yf : mesh (list R) * fields) r => local_integral absc ref dimension opts time kernel yf.2 yf.1 ids r) run locals ->
    exists E, (forall e, is_elem (m_domains x) e -> contributes (absc (el_order e)) (QO e) dimension kernel time inds u e (E e)) /\
      (exists ls, locals = map Ok ls) /\
      forall g, all_reduce n_equations locals g -> forall k, (k < n_equations)%nat -> g k = over (elems_of x ids) (fun e => E e k).
  Proof.
    intros [H1 H2 H3 H4 H5] Hl. exists (EV absc ref dimension opts time inds u kernel). split; [|split].
    - intros e [i He]. apply element_contributes. by eapply good_x.
    - eexists. by eapply locals_ok.
    - intros g Hg k Hk. erewrite all_ok; [|done..]. by destruct (Nat.ltb_spec k n_equations); [|lia].
  Qed.
  (** C77.  (Partial in the same way.)  The same over boundaries (not those of lines): every boundary element counts
      once, as a side of an element it is attached to. *)
  Theorem integral_boundary_partial (phi : nat -> nat) (run : list (mesh (list R) * fields)) (kernel : bkernel) (ids : list nat) (locals : list (res vect)) :
    setting absc ref opts orders x N phi inds u run -> (1 < dimension)%nat -> (forall b, b ∈ ids -> b ∈ (m_bnds x).*1) ->
    Forall2 (fun (yf : mesh (list R) * fields) r => local_boundary_integral absc ref dimension opts time kernel yf.2 yf.1 ids r) run locals ->
    exists W E, Forall2 (fun b v => attached (m_domains x) b v.1 v.2) (elems_of x ids) W /\
      Forall (fun v => side_contributes (absc (el_order v.1)) (QO v.1) dimension kernel time inds u v.1 v.2 (E v)) W /\
      (exists ls, locals = map Ok ls) /\
      forall g, all_reduce n_equations locals g -> forall k, (k < n_equations)%nat -> g k = over W (fun v => E v k).
  Proof.
    intros [H1 H2 H3 H4 H5] Hd Hids Hl. edestruct (ball_ok absc ref dimension n_equations opts time orders x N phi inds u run) as (W & HW & Hg); [done..|]. exists W, (SV absc ref dimension opts time inds u kernel). split; [done|]. split; [|split].
    - apply Forall_forall. intros v Hv. apply elem_of_list_lookup in Hv as [q Hq]. destruct (Forall2_lookup_r _ _ _ _ _ HW Hq) as (b & _ & [i He] & _ & Hs). destruct v as [e s]. cbn [fst snd] in *. apply side_contributes_ok; [done|by eapply good_x|].
      destruct Hs as (_ & _ & _ & _ & _ & _ & Hs). destruct (el_type e); cbn in Hs |- *; lia.
    - eexists. by eapply blocals_ok.
    - intros g Hr k Hk. rewrite (Hg g Hr k). by destruct (Nat.ltb_spec k n_equations); [|lia].
  Qed.
  (** C77.  The result does not depend on the partition, ... *)
  Theorem integral_any_partition (phi phi' : nat -> nat) (run run' : list (mesh (list R) * fields)) (kernel : dkernel) (ids : list nat) (locals locals' : list (res vect)) (g g' : vect) :
    setting absc ref opts orders x N phi inds u run -> setting absc ref opts orders x N phi' inds u run' ->
    Forall2 (fun (yf : mesh (list R) * fields) r => local_integral absc ref dimension opts time kernel yf.2 yf.1 ids r) run locals -> all_reduce n_equations locals g ->
    Forall2 (fun (yf : mesh (list R) * fields) r => local_integral absc ref dimension opts time kernel yf.2 yf.1 ids r) run' locals' -> all_reduce n_equations locals' g' ->
    forall k, g k = g' k.
  Proof. intros [H1 H2 H3 H4 H5] [G1 G2 G3 G4 G5] Hl Hg Hl' Hg' k. erewrite (all_ok absc ref dimension n_equations opts time orders x N phi); [|done..]. erewrite (all_ok absc ref dimension n_equations opts time orders x N phi'); [|done..]. done. Qed.
  (** ... for boundaries if boundary elements are sides of one element only. *)
  Theorem boundary_any_partition (phi phi' : nat -> nat) (run run' : list (mesh (list R) * fields)) (kernel : bkernel) (ids : list nat) (locals locals' : list (res vect)) (g g' : vect) :
    setting absc ref opts orders x N phi inds u run -> setting absc ref opts orders x N phi' inds u run' -> (1 < dimension)%nat -> (forall b, b ∈ ids -> b ∈ (m_bnds x).*1) ->
    (forall b e s e' s', b ∈ elems_of x ids -> attached (m_domains x) b e s -> attached (m_domains x) b e' s' -> e = e' /\ s = s') ->
    Forall2 (fun (yf : mesh (list R) * fields) r => local_boundary_integral absc ref dimension opts time kernel yf.2 yf.1 ids r) run locals -> all_reduce n_equations locals g ->
    Forall2 (fun (yf : mesh (list R) * fields) r => local_boundary_integral absc ref dimension opts time kernel yf.2 yf.1 ids r) run' locals' -> all_reduce n_equations locals' g' ->
    forall k, g k = g' k.
  Proof.
    intros [H1 H2 H3 H4 H5] [G1 G2 G3 G4 G5] Hd Hids Hu Hl Hg Hl' Hg' k.
    edestruct (ball_ok absc ref dimension n_equations opts time orders x N phi inds u run) as (W & HW & Hs); [done..|]. edestruct (ball_ok absc ref dimension n_equations opts time orders x N phi' inds u run') as (W' & HW' & Hs'); [done..|].
    assert (W = W') as ->; [|by rewrite (Hs g Hg k), (Hs' g' Hg' k)]. clear -HW HW' Hu. unfold elems_of in *. revert W' HW'. induction HW as [|b [e s] l W Hb _ IH]; intros W' HW'; inversion HW' as [|? [e' s'] ? W0 Hb' Hr]; subst; [done|]. cbn [fst snd] in *.
    destruct (Hu b e s e' s' ltac:(left) Hb Hb') as [-> ->]. f_equal. apply IH; [|done]. intros b0 e0 s0 e1 s1 Hin. apply Hu. by right.
  Qed.
  (** C77.  Norms use quadratures of twice the order.  [K e] is the kernel on the
      reference element of [e], [D e] the determinant of the mapping.  If it is positive
      the squared norm is a sum without negative terms; if the integrands are integrated
      exactly, the norm vanishes only if the kernel vanishes inside all elements. *)
  Theorem norm_l2 (phi : nat -> nat) (run : list (mesh (list R) * fields)) (kernel : dkernel) (ids : list nat) (locals : list (res vect)) :
    setting absc ref (doubleQuadratureOrder opts) orders x N phi inds u run ->
    Forall2 (fun (yf : mesh (list R) * fields) r => local_integral absc ref dimension (doubleQuadratureOrder opts) time (square_kernel kernel) yf.2 yf.1 ids r) run locals ->
    let L := List.filter (fun e => (dimension =? native_dim (el_type e))%nat) (elems_of x ids) in
    exists K D, (forall e, e ∈ L -> exists X J fv fd, geometry (el_type e) (el_verts e) X J /\
        (forall p, length p = dimension -> det dimension (ent (J p)) <> 0 -> sees (el_type e) (absc (el_order e)) J (node_value u inds e) (length inds) p (fv p) (fd p)) /\
        forall p k, K e k p = kernel (fv p) (fd p) (X p) time k /\ D e p = det dimension (ent (J p))) /\
      exists Q, (forall e k, e ∈ L -> quadrature_of (el_type e) (2 * QO e) (fun p => D e p * (K e k p * K e k p)) (Q e k)) /\
        forall g, all_reduce n_equations locals g -> forall k, (k < n_equations)%nat ->
          (forall e p, e ∈ L -> inside (el_type e) p -> 0 < D e p) ->
          0 <= norms g k /\ norms g k * norms g k = over L (fun e => Q e k) /\
          ((forall e, e ∈ L -> is_poly (el_type e) (S (2 * QO e)) (fun p => D e p * (K e k p * K e k p))) ->
           norms g k = 0 <-> forall e p, e ∈ L -> inside (el_type e) p -> K e k p = 0).
  Proof.
    intros [H1 H2 H3 H4 H5] Hl L. set (EVs := EV absc ref dimension (doubleQuadratureOrder opts) time inds u (square_kernel kernel)).
    exists (fun e k p => kernel (fvals (el_type e) (absc (el_order e)) (length inds) (vals_of inds u (el_nodes e)) p) (fders (el_type e) (el_verts e) (absc (el_order e)) (length inds) (vals_of inds u (el_nodes e)) p) (Xf (el_type e) (el_verts e) p) time k),
      (fun e p => det dimension (ent (Jm (el_type e) (el_verts e) p))).
    assert (Hin : forall e, e ∈ L -> good absc ref (doubleQuadratureOrder opts) e /\ dimension = native_dim (el_type e)).
    { intros e He. apply elem_of_list_In, filter_In in He as [He Hd]. apply Nat.eqb_eq in Hd. apply elem_of_list_In in He. unfold elems_of in He. apply elem_of_concat in He as (l & He & Hi). apply (elem_of_list_fmap (dom_elems (m_domains x))) in Hi as (i & -> & _). apply dom_elems_in in He. split; [by eapply good_x|done]. }
    split.
    - intros e He. destruct (Hin e He) as [Hg ->]. do 4 eexists. split; [destruct Hg as ([Hn HV] & HP & _); by apply geometry_ok|]. split; [intros p Hp Hd; eapply sees_el; done|]. done.
    - exists EVs. assert (HQ : forall e k, e ∈ L -> quadrature_of (el_type e) (2 * QO e) (fun p => det dimension (ent (Jm (el_type e) (el_verts e) p)) * (kernel (fvals (el_type e) (absc (el_order e)) (length inds) (vals_of inds u (el_nodes e)) p) (fders (el_type e) (el_verts e) (absc (el_order e)) (length inds) (vals_of inds u (el_nodes e)) p) (Xf (el_type e) (el_verts e) p) time k * kernel (fvals (el_type e) (absc (el_order e)) (length inds) (vals_of inds u (el_nodes e)) p) (fders (el_type e) (el_verts e) (absc (el_order e)) (length inds) (vals_of inds u (el_nodes e)) p) (Xf (el_type e) (el_verts e) p) time k)) (EVs e k)).
      { intros e k He. destruct (Hin e He) as [Hg Hd]. pose proof Hg as (_ & _ & _ & _ & _ & Hs). unfold EVs, EV. rewrite <- Hd, Nat.eqb_refl. destruct (quad_ok (el_type e) _ _ Hs) as (q & Hq & _ & _ & Hf). rewrite Hq.
        replace (2 * QO e)%nat with (q_order (doubleQuadratureOrder opts) (el_order e)) by (unfold q_order, doubleQuadratureOrder; cbn; lia).
        specialize (Hf (fun p => integrand (el_type e) (el_verts e) (absc (el_order e)) (length inds) (vals_of inds u (el_nodes e)) (square_kernel kernel) time k p)). unfold integrand, square_kernel in *. rewrite Hd. 
        replace (fun p => det (native_dim (el_type e)) (ent (Jm (el_type e) (el_verts e) p)) * _) with (fun p => determinant (native_dim (el_type e)) (Jm (el_type e) (el_verts e) p) * (kernel (fvals (el_type e) (absc (el_order e)) (length inds) (vals_of inds u (el_nodes e)) p) (fders (el_type e) (el_verts e) (absc (el_order e)) (length inds) (vals_of inds u (el_nodes e)) p) (Xf (el_type e) (el_verts e) p) time k * kernel (fvals (el_type e) (absc (el_order e)) (length inds) (vals_of inds u (el_nodes e)) p) (fders (el_type e) (el_verts e) (absc (el_order e)) (length inds) (vals_of inds u (el_nodes e)) p) (Xf (el_type e) (el_verts e) p) time k)); [exact Hf|].
        apply functional_extensionality. intros p. by rewrite det_ok by apply dim_13. }
      split; [exact HQ|]. intros g Hg k Hk Hpos.
      assert (Esum : g k = over L (fun e => EVs e k)).
      { erewrite (all_ok absc ref dimension n_equations (doubleQuadratureOrder opts) time orders x N phi); [|done..]. destruct (Nat.ltb_spec k n_equations); [|lia]. fold (elems_of x ids). fold EVs. unfold L. clear -EVs. induction (elems_of x ids) as [|e l IH]; [done|].
        cbn [List.filter]. unfold over in *. cbn [foldr]. rewrite IH. unfold EVs at 1, EV at 1. destruct (dimension =? native_dim (el_type e))%nat eqn:E; cbn [foldr].
        - f_equal. unfold EVs, EV. by rewrite E.
        - unfold vzero. lra. }
      assert (Hsq : forall a b : R, 0 < a -> 0 <= a * (b * b)) by (intros a b Ha; apply Rmult_le_pos; [lra|]; pose proof (Rle_0_sqr b); unfold Rsqr in *; lra).
      assert (Hnn : forall e, e ∈ L -> 0 <= EVs e k) by (intros e He; eapply quad_sign; [by apply HQ|]; intros p Hp; cbv beta; apply Hsq; by apply Hpos).
      destruct (over_sign L (fun e => EVs e k) Hnn) as [O1 O2]. unfold norms. rewrite Esum. split; [apply sqrt_pos|]. split; [by apply sqrt_sqrt|]. intros Hpoly. split.
      + intros H0 e p He Hp. apply sqrt_eq_0 in H0; [|done]. specialize (O2 H0 e He). cbv beta in O2. destruct (HQ e k He) as [_ Hint]. specialize (Hint (Hpoly e He)). rewrite O2 in Hint.
        destruct (on_sign _ _ _ Hint) as [_ Hz]; [intros q Hq; cbv beta; apply Hsq; by apply Hpos|]. specialize (Hz eq_refl p Hp). cbv beta in Hz. specialize (Hpos e p He Hp). cbv beta in Hpos. apply Rmult_integral in Hz as [Hz|Hz]; [lra|]. apply Rmult_integral in Hz. tauto.
      + intros Hz. assert (over L (fun e => EVs e k) = 0) as ->; [|apply sqrt_0]. rewrite (over_ext L _ (fun _ => 0)); [clear; induction L as [|a l IH]; unfold over in *; cbn; [done|]; lra|].
        intros e He. destruct (HQ e k He) as [(pts & ws & Hlen & Hpts & _ & ->) _]. rewrite (rsum_ext _ _ (fun _ => 0 * 0)); [rewrite rsum_scal; lra|]. intros i Hi. rewrite <- Hlen in Hi. destruct (lookup_lt_is_Some_2 pts i Hi) as [q Eq]. rewrite (nth_lookup_Some pts i [] q Eq). rewrite Forall_forall in Hpts.
        specialize (Hz e q He ltac:(apply Hpts; by eapply elem_of_list_lookup_2)). cbv beta in Hz. rewrite Hz. lra.
  Qed.
End props.
Print Assumptions integral_distributed_partial.
Print Assumptions integral_boundary_partial.
Print Assumptions integral_any_partition.
Print Assumptions boundary_any_partition.
Print Assumptions norm_l2.
(** C77.  There is always a result. *)
Lemma uv_exists {A} (f : A -> res vect) (v : univec A) : exists r, uv_transformReduce true radd f v (Ok vzero) r.
Proof.
  assert (exists ps, Forall2 (fun v p => parallelTransformReduce radd f v (Ok vzero) p) v ps) as [ps Hp].
  { induction v as [|a v [ps IH]]; [exists []; constructor|]. destruct (reduce_ex radd (Ok vzero) f a) as [p Hp]. exists (p :: ps). by constructor. }
  destruct (gen_sum_ex radd ps (Ok vzero)) as [r Hr]. by exists r, ps.
Qed.
Theorem integral_exists absc ref dimension opts time (fa : fields) (x : mesh (list R)) (ids : list nat) :
  (forall kernel, exists r, local_integral absc ref dimension opts time kernel fa x ids r) /\
  (forall kernel, exists r, local_boundary_integral absc ref dimension opts time kernel fa x ids r) /\
  forall n_equations l ls, exists g, all_reduce n_equations (map Ok (l :: ls)) g.
Proof.
  split; [|split].
  - intros kernel. unfold local_integral, mesh_transformReduce. set (f := element_integral absc ref dimension opts time kernel fa). assert (exists ps, Forall2 (fun d p => uv_transformReduce true radd f (d_els d) (Ok vzero) p) (omap (fun i => dm_find i (m_domains x)) ids) ps) as [ps Hp].
    { induction (omap _ ids) as [|d l [ps IH]]; [exists []; constructor|]. destruct (uv_exists f (d_els d)) as [p Hp]. exists (p :: ps). by constructor. }
    destruct (gen_sum_ex radd ps (Ok vzero)) as [r Hr]. by exists r, ps.
  - intros kernel. unfold local_boundary_integral. set (f := side_integral absc ref dimension opts time kernel fa).
    assert (exists ps, Forall2 (fun views p => exists vs, concat vs ≡ₚ views /\ uv_transformReduce true radd f vs (Ok vzero) p) (omap (fun b => dm_find b (m_bnds x)) ids) ps) as [ps Hp].
    { induction (omap _ ids) as [|d l [ps IH]]; [exists []; constructor|]. destruct (uv_exists f [d]) as [p Hp]. exists (p :: ps). constructor; [|done]. exists [d]. split; [cbn; by rewrite app_nil_r|done]. }
    destruct (gen_sum_ex radd ps (Ok vzero)) as [r Hr]. by exists r, ps.
  - intros neq l ls. exists (fun k => if (k <? neq)%nat then foldr (fun v s => v k + s) 0 (l :: ls) else 0), (l :: ls). split; [done|]. intros k. destruct (k <? neq)%nat; [|done].
    destruct (gen_sum_ex Rplus (map (fun v : vect => v k) ls) (l k)) as [r Hr]. assert (r = foldr (fun v s => v k + s) 0 (l :: ls)) as <-; [|exact Hr].
    rewrite (gen_sum_over _ _ Hr). change (l k :: map (fun v : vect => v k) ls) with (map (fun v : vect => v k) (l :: ls)). by rewrite over_map.
Qed.
Print Assumptions integral_exists.
(** ** Two unit squares in a row, on two ranks *)
Definition sqv (i : nat) : list R := [INR (i `mod` 3); INR (i / 3); 0].
Definition sq_q (n : list nat) (i : nat) : element (list R) := mk_el Quad 1 n (map sqv n) i.
Definition sq_l (n : list nat) (i : nat) : element (list R) := mk_el Line 1 n (map sqv n) i.
Definition sq_doms : dmap (domain (list R)) :=
  [(0, mk_dom [[]; [sq_q [0; 1; 3; 4] 0; sq_q [1; 2; 4; 5] 1]; []] (Some 2)); (1, mk_dom [[]; []; [sq_l [1; 0] 2; sq_l [1; 2] 3]] (Some 1))]%nat.
Definition sq_mesh : mesh (list R) :=
  mk_mesh sq_doms {| so_begin := 0; so_end := 6; so_shared := [] |} [(1%nat, [(sq_q [0; 1; 3; 4]%nat 0, 0%nat); (sq_q [1; 2; 4; 5]%nat 1, 0%nat)])].
Section example.
Local Open Scope nat_scope.
Lemma sq_case (p : nat * domain (list R)) : p ∈ sq_doms -> p = (0, mk_dom [[]; [sq_q [0; 1; 3; 4] 0; sq_q [1; 2; 4; 5] 1]; []] (Some 2)) \/ p = (1, mk_dom [[]; []; [sq_l [1; 0] 2; sq_l [1; 2] 3]] (Some 1)).
Proof. intros Hp. unfold sq_doms in Hp. rewrite !elem_of_cons, elem_of_nil in Hp. tauto. Qed.
Lemma sq_in i e : in_domain sq_doms i e <-> (i = 0 /\ (e = sq_q [0; 1; 3; 4] 0 \/ e = sq_q [1; 2; 4; 5] 1)) \/ (i = 1 /\ (e = sq_l [1; 0] 2 \/ e = sq_l [1; 2] 3)).
Proof.
  split.
  - intros (d & v & Hd & Hv & He). apply sq_case in Hd as [Hd|Hd]; injection Hd as -> ->; cbn in Hv; rewrite !elem_of_cons, elem_of_nil in Hv; destruct Hv as [->|[->|[->|[]]]]; rewrite ?elem_of_cons, ?elem_of_nil in He; tauto.
  - intros [[-> H]|[-> H]]; [eexists _, [sq_q [0; 1; 3; 4] 0; sq_q [1; 2; 4; 5] 1]|eexists _, [sq_l [1; 0] 2; sq_l [1; 2] 3]]; (split; [unfold sq_doms; rewrite !elem_of_cons; eauto|]); (split; [cbn; rewrite !elem_of_cons; eauto|]); rewrite !elem_of_cons; tauto.
Qed.
Lemma sq_unpartitioned : unpartitioned [1] sq_mesh 6.
Proof.
  split.
  - apply NoDup_singleton.
  - split; [repeat constructor|]. assert (Hdim : forall p, p ∈ sq_doms -> dim_domain p.2).
    { intros p Hp v e Hv He. apply sq_case in Hp as [->| ->]; cbn in Hv; rewrite !elem_of_cons, elem_of_nil in Hv; destruct Hv as [->|[->|[->|[]]]]; rewrite ?elem_of_cons, ?elem_of_nil in He; destruct He as [->|[->|[]]] || destruct He; done. }
    constructor; [|constructor; [|constructor]]; (split; [|apply Hdim; unfold sq_doms; rewrite !elem_of_cons; eauto]); repeat constructor.
  - apply (bool_decide_unpack _). by vm_compute.
  - done.
  - lia.
  - intros n (e & [i He] & Hn). apply sq_in in He as [[_ [->| ->]]|[_ [->| ->]]]; cbn in Hn; rewrite !elem_of_cons, elem_of_nil in Hn; lia.
  - intros n H. exists 0. change ((m_bnds sq_mesh).*1) with [1]. destruct (decide (n ∈ [0; 1; 3; 4])) as [Hi|Hi].
    + exists (sq_q [0; 1; 3; 4] 0). split; [by apply (bool_decide_unpack _)|]. split; [|done]. apply sq_in. auto.
    + exists (sq_q [1; 2; 4; 5] 1). split; [by apply (bool_decide_unpack _)|]. split; [apply sq_in; auto|]. cbn [sq_q el_nodes]. rewrite !elem_of_cons, elem_of_nil in *. lia.
  - change ((m_bnds sq_mesh).*1) with [1]. split; [apply NoDup_singleton|]. intros b Hb. apply elem_of_list_singleton in Hb as ->. right. left.
  - change ((m_bnds sq_mesh).*1) with [1]. change (m_domains sq_mesh) with sq_doms. split.
    + intros i d Hid Hd. apply elem_of_list_singleton in Hid as ->. apply sq_case in Hd as [Hd|Hd]; [done|]. injection Hd as ->. exists 1. split; [done|]. do 2 eexists. split; [left|done].
    + intros b d i d' dim Hb Hd Hdim Hd' Hdim' Hid. apply elem_of_list_singleton in Hb as ->. apply elem_of_list_singleton in Hid as ->.
      apply sq_case in Hd as [Hd|Hd]; [done|]. injection Hd as ->. apply sq_case in Hd' as [Hd'|Hd']; [done|]. injection Hd' as ->. injection Hdim as <-. done.
Qed.
Lemma side_nodes_in (b e : element (list R)) s i n : side_of b e s -> on_side (el_type e) (el_order e) s i -> el_nodes e !! i = Some n -> n ∈ el_nodes b.
Proof.
  intros (is & ns & _ & Hi & Hf & Hp & _) Hs Hn. apply Hi in Hs. apply elem_of_list_lookup in Hs as [k Hk]. destruct (Forall2_lookup_l _ _ _ _ _ Hf Hk) as (n' & Hn' & E). rewrite Hn in E. injection E as <-. rewrite Hp. by eapply elem_of_list_lookup_2.
Qed.
Lemma sq_attached b e s : in_domain sq_doms 1 b -> attached sq_doms b e s -> s = 0 /\ ((b = sq_l [1; 0] 2 /\ e = sq_q [0; 1; 3; 4] 0) \/ (b = sq_l [1; 2] 3 /\ e = sq_q [1; 2; 4; 5] 1)).
Proof.
  intros Hb ([j He] & Hd & Hs). apply sq_in in Hb as [[? _]|[_ Hb]]; [done|]. assert (Hlt : s < 4). { destruct Hs as (_ & _ & _ & _ & _ & _ & Hlt). apply sq_in in He as [[_ [->| ->]]|[_ [->| ->]]]; cbn in Hlt; lia. }
  pose proof (side_nodes_in b e s) as Hin.
  apply sq_in in He as [[_ He]|[_ He]]; [|exfalso; destruct He as [->| ->], Hb as [->| ->]; done].
  destruct He as [->| ->], Hb as [->| ->]; cbn [sq_q sq_l el_type el_order el_nodes] in *; (destruct s as [|[|[|[|s]]]]; [| | | |lia]);
    first [split; [done|]; tauto
      | exfalso; specialize (Hin 0 _ Hs ltac:(split; [cbn; lia|done]) eq_refl); rewrite !elem_of_cons, elem_of_nil in Hin; lia
      | exfalso; specialize (Hin 1 _ Hs ltac:(split; [cbn; lia|done]) eq_refl); rewrite !elem_of_cons, elem_of_nil in Hin; lia
      | exfalso; specialize (Hin 2 _ Hs ltac:(split; [cbn; lia|done]) eq_refl); rewrite !elem_of_cons, elem_of_nil in Hin; lia
      | exfalso; specialize (Hin 3 _ Hs ltac:(split; [cbn; lia|done]) eq_refl); rewrite !elem_of_cons, elem_of_nil in Hin; lia ].
Qed.
Lemma sq_one_parent : one_parent sq_mesh.
Proof.
  intros b e Hb He. change ((m_bnds sq_mesh).*1) with [1] in Hb. change (m_domains sq_mesh) with sq_doms in *. apply elem_of_list_singleton in Hb as ->. exists 0. split.
  - destruct (find_dom_ok [1] sq_doms (un_valid _ _ _ sq_unpartitioned) e 0) as [[Hf _]|(e' & s & _ & Ha)]; [|by exists e', s].
    apply sq_in in He as [[? _]|[_ [->| ->]]]; [done| |]; vm_compute in Hf; done.
  - intros i (e' & s & Hin & Hdim & _). apply sq_in in Hin as [[? _]|[-> Hin]]; [done|]. apply sq_in in He as [[? _]|[_ He]]; [done|]. exfalso. destruct Hin as [->| ->], He as [->| ->]; cbn in Hdim; lia.
Qed.
End example.
Definition sq_env : env (V := list R) :=
  {| e_metis n_els n_nodes _ _ _ n := Ok (map (fun i => i `mod` n)%nat (seq 0 n_els), map (fun i => (i + 1) `mod` n)%nat (seq 0 n_nodes));
     e_sort := isort; e_visit l := reverse l; e_assign l := l; e_views l := l; e_hash l := reverse l |}.
Lemma sq_env_ok : env_ok sq_env.
Proof.
  split; [|exact isort_sorts|intros l; apply reverse_Permutation|done|done|intros l; apply reverse_Permutation].
  intros n_els n_nodes e_ptr e_ind w n Hn. do 2 eexists. split; [done|]. rewrite !map_length, !seq_length. split; [done|]. split; [done|].
  split; apply Forall_forall; intros p Hp; change (map ?g ?l) with (g <$> l) in Hp; apply elem_of_list_fmap in Hp as (i & -> & _); by apply Nat.mod_upper_bound; lia.
Qed.
(** One field, the first coordinate; one quadrature point. *)
Definition sq_absc : nat -> list R := fun _ => absc1.
Definition sq_ref : nat -> list (list R) * list R := fun QO => getReferenceQuadrature QO lam0 one1.
Definition sq_opts : options := {| o_value := 1; o_der := 0 |}.
Definition sq_u : nat -> nat -> R := fun _ n => INR (n `mod` 3).
Example integral_example (n_parts : nat) : (1 <= n_parts)%nat -> exists phi run, length run = n_parts /\ setting sq_absc sq_ref sq_opts [1%nat] sq_mesh 6 phi [0%nat] sq_u run /\
  (forall b, b ∈ [1%nat] -> b ∈ (m_bnds sq_mesh).*1) /\
  forall b e s e' s', b ∈ elems_of sq_mesh [1%nat] -> attached (m_domains sq_mesh) b e s -> attached (m_domains sq_mesh) b e' s' -> e = e' /\ s = s'.
Proof.
  intros Hn. destruct (partition_is_partition [1%nat] sq_mesh 6 n_parts [] sq_env sq_unpartitioned sq_one_parent sq_env_ok Hn ltac:(by left)) as (parts & phi & _ & Hp).
  exists phi, (map (fun y : mesh (list R) => (y, {| f_inds := [0%nat]; f_own := m_own y; f_data := map (fun m => sq_u 0 (psi 6 phi m)) (local_ids (m_own y)) |})) parts).
  assert (Hl : length parts = n_parts) by apply (po_count _ _ _ _ _ _ Hp). split; [by rewrite map_length|]. split; [|split].
  - assert (Em : map fst (map (fun y : mesh (list R) => (y, {| f_inds := [0%nat]; f_own := m_own y; f_data := map (fun m => sq_u 0 (psi 6 phi m)) (local_ids (m_own y)) |})) parts) = parts) by (rewrite map_map; cbn; apply map_id). split.
    + exact sq_unpartitioned.
    + rewrite Em, map_length, Hl. exact Hp.
    + intros O HO. apply elem_of_list_singleton in HO as ->. destruct absc1_ok as [K1 K2]. split; [lia|]. split; [done|]. split; [done|]. exists lam0, one1. split; [exact eigen1|done].
    + intros e [i He]. apply sq_in in He as [[_ [->| ->]]|[_ [->| ->]]]; repeat constructor.
    + apply Forall_forall. intros yf Hy. apply (elem_of_list_fmap (fun y : mesh (list R) => (y, {| f_inds := [0%nat]; f_own := m_own y; f_data := map (fun m => sq_u 0 (psi 6 phi m)) (local_ids (m_own y)) |}))) in Hy as (y & -> & Hy). cbn [fst snd f_own f_inds f_data]. split; [done|]. split; [done|].
      intros f l n Hf HN Hln. apply elem_of_list_singleton in Hf as ->. rewrite Nat.mul_0_l, Nat.add_0_r. rewrite (list_lookup_fmap (fun m => sq_u 0 (psi 6 phi m))), Hln. cbn [fmap option_fmap option_map].
      rewrite (psi_phi [1%nat] sq_mesh 6 phi (map (fun y => (y, {| f_inds := []; f_own := m_own y; f_data := [] |})) parts)); [done| |done]. rewrite map_map, map_length, Hl. cbn. rewrite map_id. exact Hp.
  - intros b Hb. done.
  - intros b e s e' s' Hb Ha Ha'. unfold elems_of in Hb. cbn [map concat] in Hb. rewrite app_nil_r in Hb. apply dom_elems_in in Hb. destruct (sq_attached b e s Hb Ha) as [-> H1]. destruct (sq_attached b e' s' Hb Ha') as [-> H2]. split; [|done].
    destruct H1 as [[-> ->]|[-> ->]], H2 as [[Hb2 ->]|[Hb2 ->]]; done.
Qed.
(** The kernel returns the field, in every column. *)
Definition field_kernel : dkernel := fun fv _ _ _ _ => nth 0 fv 0.
Lemma sq_value e k : e ∈ elems_of sq_mesh [0%nat] -> EV sq_absc sq_ref 2 sq_opts 0 [0%nat] sq_u field_kernel e k = match el_id e with O => / 2 | _ => 3 / 2 end.
Proof.
  intros He. unfold elems_of in He. cbn [map concat] in He. rewrite app_nil_r in He. apply dom_elems_in in He. apply sq_in in He as [[_ He]|[? _]]; [|done].
  assert (Hq : getQuadrature Quad (sq_ref 1) = Ok ([[0; 0]], [4])). { cbn. unfold lam0, one1. repeat f_equal; lra. }
  assert (HB : forall I, (I < 4)%nat -> Bv Quad absc1 I 0 [0; 0] = / 4).
  { intros I HI. unfold Bv. cbn [Nat.eqb G nth]. change (length absc1) with 2%nat. rewrite !Lb1; [|apply Nat.div_lt_upper_bound; lia|apply Nat.mod_upper_bound; lia]. destruct (_ mod 2)%nat, (_ / _)%nat; lra. }
  assert (HE : forall nodes i a b, map sqv nodes = [[a; 0; 0]; [b; 0; 0]; [a; 1; 0]; [b; 1; 0]] -> b = a + 1 -> map (sq_u 0) nodes = [a; b; a; b] ->
    EV sq_absc sq_ref 2 sq_opts 0 [0%nat] sq_u field_kernel (sq_q nodes i) k = a + / 2).
  { intros nodes i a b HV Hb Hu. unfold EV. cbn [sq_q el_type el_order el_nodes el_verts native_dim Nat.eqb]. change (q_order sq_opts 1) with 1%nat. rewrite Hq. cbn [length fst snd rsum nth]. unfold integrand, field_kernel. cbn [native_dim].
    assert (EJ : Jm Quad (map sqv nodes) [0; 0] = [[/ 2; 0]; [0; / 2]]). { rewrite HV, Hb. unfold Jm, mk, Bv, G. cbn. change [-1; 1] with absc1. rewrite !Db1, !Lb1 by lia. repeat f_equal; lra. }
    rewrite EJ. assert (Ed : determinant 2 [[/ 2; 0]; [0; / 2]] = / 4) by (cbn; unfold ent; cbn; lra). rewrite Ed.
    assert (Ev : nth 0 (fvals Quad (sq_absc 1) 1 (vals_of [0%nat] sq_u nodes) [0; 0]) 0 = a + / 2); [|rewrite Ev; lra].
    unfold fvals. cbn [seq map nth]. unfold interp, sq_absc. change (n_basis_fun Quad absc1) with 4%nat.
    rewrite (rsum_ext 4 _ (fun I => ent (vals_of [0%nat] sq_u nodes) I 0 * / 4)) by (intros I HI; by rewrite HB).
    assert (Ew : vals_of [0%nat] sq_u nodes = [[a]; [b]; [a]; [b]]). { unfold vals_of. cbn [map]. change (map (fun n => [sq_u 0 n]) nodes) with (map (fun n => (fun r => [r]) (sq_u 0 n)) nodes). rewrite <- (map_map (sq_u 0) (fun r => [r])), Hu. done. }
    rewrite Ew. unfold ent. cbn. rewrite Hb. lra. }
  destruct He as [->| ->]; cbn [sq_q el_id].
  - rewrite (HE _ _ 0 1); [lra| |lra|]; cbn; repeat f_equal; lra.
  - rewrite (HE _ _ 1 2); [lra| |lra|]; cbn; repeat f_equal; lra.
Qed.
(** The integral of the first coordinate over [0, 2] x [0, 1] is 2, whatever the
    partition and the schedule. *)
Example integral_value phi run locals g : setting sq_absc sq_ref sq_opts [1%nat] sq_mesh 6 phi [0%nat] sq_u run ->
  Forall2 (fun (yf : mesh (list R) * fields) r => local_integral sq_absc sq_ref 2 sq_opts 0 field_kernel yf.2 yf.1 [0%nat] r) run locals -> all_reduce 1 locals g ->
  g 0%nat = 2 /\ g 1%nat = 0 /\ exists E, (forall e, is_elem (m_domains sq_mesh) e -> contributes (sq_absc (el_order e)) (q_order sq_opts (el_order e)) 2 field_kernel 0 [0%nat] sq_u e (E e)) /\ over (elems_of sq_mesh [0%nat]) (fun e => E e 1%nat) = 2.
Proof.
  intros [H1 H2 H3 H4 H5] Hl Hg. pose proof (all_ok sq_absc sq_ref 2 1 sq_opts 0 _ _ _ _ _ _ _ H1 H2 H3 H4 H5 field_kernel [0%nat] locals Hl g Hg) as H. fold (elems_of sq_mesh [0%nat]) in H.
  assert (Hv : forall k, over (elems_of sq_mesh [0%nat]) (fun e => EV sq_absc sq_ref 2 sq_opts 0 [0%nat] sq_u field_kernel e k) = 2).
  { intros k. rewrite (over_ext _ _ (fun e => match el_id e with O => / 2 | _ => 3 / 2 end)) by (intros e He; by apply sq_value). unfold over, elems_of. cbn. lra. }
  split; [rewrite (H 0%nat); cbn [Nat.ltb Nat.leb]; apply Hv|]. split; [by rewrite (H 1%nat)|]. exists (EV sq_absc sq_ref 2 sq_opts 0 [0%nat] sq_u field_kernel). split; [|apply Hv].
  intros e [i He]. apply element_contributes. by eapply good_x.
Qed.
(** C77.  With a second right-hand side (n_equations = 1, n_rhs = 2) the second column is
    not reduced: the integral there is 2, the result 0. *)
Theorem integral_columns_refuted : exists phi run locals g, setting sq_absc sq_ref sq_opts [1%nat] sq_mesh 6 phi [0%nat] sq_u run /\
  Forall2 (fun (yf : mesh (list R) * fields) r => local_integral sq_absc sq_ref 2 sq_opts 0 field_kernel yf.2 yf.1 [0%nat] r) run locals /\ all_reduce 1 locals g /\
  exists E, (forall e, is_elem (m_domains sq_mesh) e -> contributes (sq_absc (el_order e)) (q_order sq_opts (el_order e)) 2 field_kernel 0 [0%nat] sq_u e (E e)) /\
    g 0%nat = over (elems_of sq_mesh [0%nat]) (fun e => E e 0%nat) /\ g 1%nat <> over (elems_of sq_mesh [0%nat]) (fun e => E e 1%nat).
Proof.
  destruct (integral_example 2 ltac:(lia)) as (phi & run & Hlen & Hs & _). assert (Hx : exists locals, Forall2 (fun (yf : mesh (list R) * fields) r => local_integral sq_absc sq_ref 2 sq_opts 0 field_kernel yf.2 yf.1 [0%nat] r) run locals).
  { clear. induction run as [|[y fa] l [ls IH]]; [exists []; constructor|]. destruct (integral_exists sq_absc sq_ref 2 sq_opts 0 fa y [0%nat]) as [H _]. destruct (H field_kernel) as [r Hr]. exists (r :: ls). by constructor. }
  destruct Hx as [locals Hl]. pose proof Hs as [H1 H2 H3 H4 H5]. pose proof (locals_ok _ _ _ _ _ _ _ _ _ _ _ _ H1 H2 H3 H4 H5 _ _ _ Hl) as El. destruct run as [|yf run]; [done|]. cbn [map] in El.
  destruct (integral_exists sq_absc sq_ref 2 sq_opts 0 yf.2 yf.1 [0%nat]) as (_ & _ & Hg). destruct (Hg 1%nat (rank_sum sq_absc sq_ref 2 sq_opts 0 6 phi [0%nat] sq_u field_kernel [0%nat] yf) (map (rank_sum sq_absc sq_ref 2 sq_opts 0 6 phi [0%nat] sq_u field_kernel [0%nat]) run)) as [g Hgs]. cbn [map] in Hgs. rewrite <- El in Hgs.
  exists phi, (yf :: run), locals, g. split; [done|]. split; [done|]. split; [done|]. exists (EV sq_absc sq_ref 2 sq_opts 0 [0%nat] sq_u field_kernel). split; [intros e [i He]; apply element_contributes; by eapply good_x|].
  pose proof (all_ok sq_absc sq_ref 2 1 sq_opts 0 _ _ _ _ _ _ _ H1 H2 H3 H4 H5 field_kernel [0%nat] locals Hl g Hgs) as H. fold (elems_of sq_mesh [0%nat]) in H. split; [by rewrite (H 0%nat)|]. rewrite (H 1%nat). cbn [Nat.ltb Nat.leb].
  rewrite (over_ext _ _ (fun e => match el_id e with O => / 2 | _ => 3 / 2 end)) by (intros e He; by apply sq_value). unfold over, elems_of. cbn. lra.
Qed.
Print Assumptions integral_columns_refuted.
