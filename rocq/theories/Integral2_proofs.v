(** C77: elements, sides, and the sum over all ranks. *)
From Coq Require Import Reals Lra FunctionalExtensionality.
From Verif Require Import Base StdAlgo Ownership_model Ownership_proofs Elem_model Parallel_model Parallel_proofs Mesh_model Mesh_spec Mesh_proofs LocalBC_proofs Partition_spec Partition4_proofs
  Poly_spec Poly_model Poly_proofs Basis_spec Basis_model Basis_proofs Basis2_proofs Gauss_spec Gauss_model Gauss_proofs Gauss2_proofs Gauss_props Geom_spec Geom_model Geom_proofs Geom2_proofs Geom_props Integral_model Integral_spec Integral_proofs.
Local Open Scope R_scope.
Lemma total_rsum (l : list R) : total l = rsum (length l) (fun i => nth i l 0).
Proof.
  induction l as [|a l IH]; [done|]. cbn [length]. change (S (length l)) with (1 + length l)%nat. rewrite rsum_app. cbn [rsum nth Nat.add]. unfold total in *. cbn [foldr]. rewrite IH. lra.
Qed.
Lemma quad_ok t QO r : solved QO r -> exists q, getQuadrature t r = Ok q /\ length q.1 = length q.2 /\ Forall (inside t) q.1 /\
  forall f, quadrature_of t QO f (rsum (length q.2) (fun i => f (nth i q.1 []) * nth i q.2 0)).
Proof.
  intros (lam & V & He & ->). destruct (quadrature_points t QO lam V He) as (q & Hq & H1 & H2 & H3 & H4 & _). exists q. split; [done|]. split; [done|].
  assert (Hi : Forall (inside t) q.1). { eapply Forall_impl; [exact H4|]. intros p [Hp Hx]. split; [done|]. eapply Forall_impl; [exact Hx|]. by intros x [? _]. }
  split; [done|]. intros f. split.
  - exists q.1, q.2. repeat split; try done. apply rsum_ext. intros; ring.
  - intros Hf. destruct (quadrature_exact t QO lam V f He Hf) as (q' & Hq' & Hint). rewrite Hq in Hq'. injection Hq' as <-. destruct q as [ps ws]. cbn [fst snd] in *. rewrite (quadrature_sum (fun _ => f) ps ws 0) in Hint by done.
    rewrite Rplus_0_l in Hint. done.
Qed.
(** ** One element, one side *)
Section one.
  Context (absc : nat -> list R) (ref : nat -> list (list R) * list R) (dimension n_equations : nat) (opts : options) (time : R).
  Notation el := (element (list R)).
  Definition vals_of (inds : list nat) (u : nat -> nat -> R) (nodes : list nat) : list (list R) := map (fun n => map (fun f => u f n) inds) nodes.
  Lemma vals_ent inds u (e : el) I f : (I < length (el_nodes e))%nat -> (f < length inds)%nat -> ent (vals_of inds u (el_nodes e)) I f = node_value u inds e I f.
  Proof.
    intros HI Hf. unfold ent, vals_of, node_value. destruct (lookup_lt_is_Some_2 _ _ HI) as [n Hn]. destruct (lookup_lt_is_Some_2 _ _ Hf) as [g Hg].
    rewrite (nth_lookup_Some _ _ 0%nat n Hn), (nth_lookup_Some inds _ 0%nat g Hg).
    rewrite (nth_lookup_Some _ _ [] (map (fun f => u f n) inds)) by (rewrite (list_lookup_fmap (fun n => map (fun f => u f n) inds)), Hn; done).
    apply nth_lookup_Some. by rewrite (list_lookup_fmap (fun f => u f n)), Hg.
  Qed.
  Context (inds : list nat) (u : nat -> nat -> R).
  Notation QO e := (q_order opts (el_order e)).
  Notation nf := (length inds).
  Notation NV e := (vals_of inds u (el_nodes e)).
  Definition good (e : el) : Prop := typed_el e /\ Forall (fun v => length v = 3%nat) (el_verts e) /\ length (absc (el_order e)) = S (el_order e) /\ (1 <= el_order e)%nat /\ NoDup (absc (el_order e)) /\ solved (QO e) (ref (QO e)).
  Lemma sees_el e p : good e -> length p = native_dim (el_type e) -> det (native_dim (el_type e)) (ent (Jm (el_type e) (el_verts e) p)) <> 0 ->
    sees (el_type e) (absc (el_order e)) (Jm (el_type e) (el_verts e)) (node_value u inds e) nf p (fvals (el_type e) (absc (el_order e)) nf (NV e) p) (fders (el_type e) (el_verts e) (absc (el_order e)) nf (NV e) p).
  Proof.
    intros ([Hn HV] & H3 & Ha & HO & Hnd & _) Hp Hdet. rewrite <- det_ok in Hdet by apply dim_13.
    destruct (sees_ok (el_type e) (el_verts e) (absc (el_order e)) ltac:(lia) Hnd nf (NV e) p Hp Hdet) as (H1 & H2 & H4 & H). split; [done|]. split; [done|]. split; [done|]. intros f Hf. destruct (H f Hf) as (U & HU & HN & Hv & Hd). exists U. split; [done|]. split; [|done].
    intros I q HI. rewrite (HN I q HI). apply vals_ent; [|done]. destruct (node_at (absc (el_order e)) ltac:(lia) (el_type e) I q HI) as [HI' _]. rewrite Hn. unfold n_basis_fun in HI'. by replace (length (absc (el_order e)) - 1)%nat with (el_order e) in HI' by lia.
  Qed.
  Section domain.
    Context (kernel : dkernel).
    Definition EV (e : el) : vect :=
      if (dimension =? native_dim (el_type e))%nat then
        match getQuadrature (el_type e) (ref (QO e)) with
        | Ok q => fun k => rsum (length q.2) (fun i => integrand (el_type e) (el_verts e) (absc (el_order e)) nf (NV e) kernel time k (nth i q.1 []) * nth i q.2 0)
        | _ => vzero end
      else vzero.
    Lemma element_ok fa phi e : good e -> length (f_inds fa) = nf -> getGloballyIndexed fa (map phi (el_nodes e)) = Ok (NV e) ->
      element_integral absc ref dimension opts time kernel fa (reindex_el phi e) = Ok (EV e).
    Proof.
      intros ([Hn HV] & H3 & Ha & HO & Hnd & Hs) Hf Hg. unfold element_integral, EV. cbn [reindex_el el_type el_nodes el_order el_verts]. destruct (dimension =? native_dim (el_type e))%nat eqn:E; [|done].
      rewrite Hg, bind_ok. destruct (quad_ok (el_type e) _ _ Hs) as (q & Hq & Hl & Hin & _). rewrite Hq, bind_ok, Hf. apply evalQuad_ok; [|done]. intros p Hp. apply domain_value_ok; try done; [lia|].
      rewrite Forall_forall in Hin. by apply Hin.
    Qed.
    Lemma element_contributes e : good e -> contributes (absc (el_order e)) (QO e) dimension kernel time inds u e (EV e).
    Proof.
      intros Hg. pose proof Hg as ([Hn HV] & H3 & Ha & HO & Hnd & Hs). unfold contributes, EV. split.
      - intros ->. rewrite Nat.eqb_refl. exists (Xf (el_type e) (el_verts e)), (Jm (el_type e) (el_verts e)), (fvals (el_type e) (absc (el_order e)) nf (NV e)), (fders (el_type e) (el_verts e) (absc (el_order e)) nf (NV e)).
        split; [by apply geometry_ok|]. split; [intros p Hp Hd; by apply sees_el|]. intros k. destruct (quad_ok (el_type e) _ _ Hs) as (q & Hq & _ & _ & Hf). rewrite Hq.
        replace (fun p => det (native_dim (el_type e)) (ent (Jm (el_type e) (el_verts e) p)) * kernel (fvals (el_type e) (absc (el_order e)) nf (NV e) p) (fders (el_type e) (el_verts e) (absc (el_order e)) nf (NV e) p) (Xf (el_type e) (el_verts e) p) time k)
          with (integrand (el_type e) (el_verts e) (absc (el_order e)) nf (NV e) kernel time k); [apply Hf|].
        apply functional_extensionality. intros p. unfold integrand. by rewrite det_ok by apply dim_13.
      - intros Hne k. destruct (Nat.eqb_spec dimension (native_dim (el_type e))); done.
    Qed.
  End domain.
  Section boundary.
    Context (kernel : bkernel).
    Definition bint (t : etype) (side : nat) (V : list (list R)) (a : list R) (nvals : list (list R)) (k : nat) (p : list R) : R :=
      let J := Jm t V p in
      norm (native_dim t) (nv t side J) * kernel (fvals t a nf nvals p) (fders t V a nf nvals p) (Xf t V p) time (normalize (native_dim t) (nv t side J)) k.
    Definition SV (v : el * nat) : vect :=
      let e := v.1 in
      if (dimension =? native_dim (el_type e))%nat then
        match getQuadrature (side_type (el_type e)) (ref (QO e)) with
        | Ok q => fun k => rsum (length q.2) (fun i => bint (el_type e) v.2 (el_verts e) (absc (el_order e)) (NV e) k (SP (el_type e) v.2 (nth i q.1 [])) * nth i q.2 0)
        | _ => vzero end
      else vzero.
    Hypothesis Hdim : (1 < dimension)%nat.
    Lemma side_ok fa phi e s : good e -> length (f_inds fa) = nf -> (s < n_sides (el_type e))%nat -> getGloballyIndexed fa (map phi (el_nodes e)) = Ok (NV e) ->
      side_integral absc ref dimension opts time kernel fa (reindex_el phi e, s) = Ok (SV (e, s)).
    Proof using Hdim.
      intros ([Hn HV] & H3 & Ha & HO & Hnd & Hs) Hf Hside Hg. unfold side_integral, SV. cbn [reindex_el el_type el_nodes el_order el_verts fst snd]. destruct (Nat.eqb_spec dimension (native_dim (el_type e))) as [E|]; [|done].
      rewrite Hg, bind_ok. set (t := el_type e) in *. assert (Ht : t <> Line) by (intros Ht; rewrite Ht in E; cbn in E; lia).
      destruct (quad_ok (side_type t) _ _ Hs) as (q & Hq & Hl & Hin & _). rewrite Forall_forall in Hin.
      assert (Hst : native_dim (side_type t) = (native_dim t - 1)%nat) by (by destruct t).
      assert (Hsq : side_quadrature t s (ref (QO e)) = Ok (map (SP t s) q.1, q.2)).
      { unfold side_quadrature. replace (match t with Line => Ok ([[]], [1]) | Quad => getQuadrature Line (ref (QO e)) | Hex => getQuadrature Quad (ref (QO e)) end) with (getQuadrature (side_type t) (ref (QO e))) by (by destruct t).
        rewrite Hq, bind_ok. rewrite (map_res_map _ (SP t s)); [by rewrite bind_ok|]. intros b Hb. apply point_ok; [|done]. rewrite <- Hst. by apply Hin. }
      rewrite Hsq, bind_ok, Hf, Hq. rewrite (evalQuad_ok _ (fun k p => bint t s (el_verts e) (absc (el_order e)) (NV e) k p)); cbn [fst snd].
      - f_equal. apply functional_extensionality. intros k. apply rsum_ext. intros i Hi. f_equal. f_equal. rewrite <- Hl in Hi. destruct (lookup_lt_is_Some_2 _ _ Hi) as [b Hb]. rewrite (nth_lookup_Some q.1 _ [] b Hb). apply nth_lookup_Some. by rewrite (list_lookup_fmap (SP t s)), Hb.
      - intros p Hp. apply (elem_of_list_fmap (SP t s)) in Hp as (b & -> & Hb). assert (Hbl : length b = (native_dim t - 1)%nat) by (rewrite <- Hst; by apply Hin). assert (Hpl : length (SP t s b) = native_dim t) by (by apply SP_len). set (p := SP t s b) in *.
        unfold boundary_value. rewrite (ders_ok t (absc (el_order e)) ltac:(lia) Hnd p Hpl), bind_ok, (jac_ok t (el_verts e) HV H3 p Hpl), bind_ok, bjac_ok, bind_ok, normal_ok, bind_ok by done.
        fold (pders t (el_verts e) (absc (el_order e)) p). rewrite input_ok; try done; lia.
      - by rewrite map_length.
    Qed.
    Lemma side_contributes_ok e s : good e -> (s < n_sides (el_type e))%nat -> side_contributes (absc (el_order e)) (QO e) dimension kernel time inds u e s (SV (e, s)).
    Proof using Hdim.
      intros Hg Hside. pose proof Hg as ([Hn HV] & H3 & Ha & HO & Hnd & Hs). unfold side_contributes, SV. cbn [fst snd]. split.
      2:{ intros Hne k. destruct (Nat.eqb_spec dimension (native_dim (el_type e))); done. }
      intros E. rewrite E, Nat.eqb_refl. set (t := el_type e) in *. assert (Ht : t <> Line) by (intros Ht; rewrite Ht in E; cbn in E; lia). set (V := el_verts e) in *.
      set (area := fun b => norm (native_dim t) (nv t s (Jm t V (SP t s b)))). set (nrm := fun b => normalize (native_dim t) (nv t s (Jm t V (SP t s b)))).
      exists (Xf t V), (Jm t V), (SP t s), area, nrm, (fvals t (absc (el_order e)) nf (NV e)), (fders t V (absc (el_order e)) nf (NV e)). split; [by apply geometry_ok|]. split.
      - intros b Hb. assert (Hpl : length (SP t s b) = native_dim t) by (by apply SP_len). split; [by apply point_ok|]. split; [done|].
        destruct (boundary_geometry t s V b Ht HV H3 Hside Hb) as (S & X & J & T & bj & nr & HS & HX & HJ & Hbj & Hnr & Hnl & HT & H0 & Hgr & Hdet).
        assert (HSe : forall b, length b = (native_dim t - 1)%nat -> S b = SP t s b). { intros b' Hb'. pose proof (HS b' Hb') as H'. rewrite point_ok in H' by done. by injection H' as <-. }
        assert (HXe : forall q, length q = native_dim t -> X q = Xf t V q). { intros q Hq. pose proof (HX q Hq) as H'. rewrite map_ok in H' by done. by injection H' as <-. }
        rewrite HSe in HJ by done. rewrite (jac_ok t V HV H3 _ Hpl) in HJ. injection HJ as <-. rewrite bjac_ok in Hbj by done. injection Hbj as <-. rewrite normal_ok in Hnr by done. injection Hnr as <-.
        split; [done|]. split.
        + exists T. split; [|split; [done|]].
          * intros k i Hk Hi. destruct (HT k i Hk Hi) as (x0 & Hx0 & Hd). exists x0. split; [done|]. apply (derivable_pt_lim_ext (fun r => nth i (X (S (<[k:=r]> b))) 0)); [|done].
            intros r. rewrite HSe by (by rewrite insert_length). rewrite HXe; [done|]. apply SP_len; [by rewrite insert_length|done].
          * intros Hd. destruct (Hdet ltac:(lra)) as (_ & Hv1 & Hv2 & Hv3 & _). split; [done|]. split; [done|]. split; [done|]. by apply Hv3.
        + intros Hd. by apply sees_el.
      - intros k. destruct (quad_ok (side_type t) _ _ Hs) as (q & Hq & _ & _ & Hf). rewrite Hq. apply (Hf (fun b => bint t s V (absc (el_order e)) (NV e) k (SP t s b))).
    Qed.
  End boundary.
End one.
