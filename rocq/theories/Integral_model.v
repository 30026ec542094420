(** Model of post/Integral.hpp, post/NormL2.hpp and post/FieldAccess.hpp: integrals and
    norms over a distributed mesh, in exact arithmetic.  Vectors (KernelInterface::Rhs, a
    column-major matrix) are functions of the position; positions from the size on are
    not looked at.  A residual kernel is a function, i.e. it sets its whole result, which
    the wrappers (common/KernelInterface.hpp:168-174, 190-196) do not initialise. *)
From Coq Require Import Reals.
From Verif Require Import Base Ownership_model Elem_model Parallel_model Mesh_model Poly_model Basis_model Gauss_model Geom_model.
Local Open Scope R_scope.

Notation vect := (nat -> R).
Definition vzero : vect := fun _ => 0.
Definition vadd (u v : vect) : vect := fun k => u k + v k.
Definition vscale (a : R) (u : vect) : vect := fun k => a * u k.
(** std::plus on results of which some may be errors; the order does not matter. *)
Definition radd (a b : res vect) : res vect :=
  match a, b with Ok u, Ok v => Ok (vadd u v) | UB, _ => UB | _, UB => UB | _, _ => Throw end.
(** Field values, field derivatives (one list per direction), point, time; for the
    boundary also the normal. *)
Notation dkernel := (list R -> list (list R) -> list R -> R -> vect).
Notation bkernel := (list R -> list (list R) -> list R -> R -> list R -> vect).

(** FieldAccess::getGloballyIndexed and fill, FieldAccess.hpp:21-30, 40-47: one row per
    node, one column per field. *)
Record fields := { f_inds : list nat; f_own : ownership; f_data : list R }.
Definition getGloballyIndexed (fa : fields) (nodes : list nat) : res (list (list R)) :=
  map_res (fun lid => map_res (fun f => rd (f_data fa) (lid + f * localSize (f_own fa))%nat) (f_inds fa)) (map (getLocalIndex (f_own fa)) nodes).

(** evalKernel, algsys/AssembleLocalSystem.hpp:53-75, 218-232 (computeFieldVals,
    computeFieldDers, mapToPhysicalSpace): what the kernel is given at a point, when
    [phys] are the physical derivatives of the basis. *)
Definition kernel_input (t : etype) (absc : list R) (nf : nat) (vertices nvals phys : list (list R)) (p : list R) : res (list R * list (list R) * list R) :=
  let nn := n_basis_fun t absc in
  vals ← computeRefBasis t absc p;
  x ← mapToPhysicalSpace t vertices p;
  Ok (map (fun f => dot nn (fun b => ent nvals b f) (fun b => nth b vals 0)) (seq 0 nf), mmul (native_dim t) nn nf phys nvals, x).
(** compute_value_at_qp, Integral.hpp:20-27, with mapDomain (MapReferenceToPhysical.hpp:31-44). *)
Definition domain_value (kernel : dkernel) (time : R) (t : etype) (absc : list R) (nf : nat) (vertices nvals : list (list R)) (p : list R) : res vect :=
  ders ← computeRefBasisDers t absc p;
  J ← jacobiMat t vertices p;
  inp ← kernel_input t absc nf vertices nvals (computePhysBasisDers (native_dim t) (n_basis_fun t absc) J ders) p;
  let '(fv, fd, x) := inp in
  Ok (vscale (determinant (native_dim t) J) (kernel fv fd x time)).
(** The same at a point of a side, 42-50, with mapBoundary (46-66). *)
Definition boundary_value (kernel : bkernel) (time : R) (t : etype) (side : nat) (absc : list R) (nf : nat) (vertices nvals : list (list R)) (p : list R) : res vect :=
  ders ← computeRefBasisDers t absc p;
  J ← jacobiMat t vertices p;
  jac ← computeBoundaryIntegralJacobian t side J;
  normal ← computeBoundaryNormal t side J;
  inp ← kernel_input t absc nf vertices nvals (computePhysBasisDers (native_dim t) (n_basis_fun t absc) J ders) p;
  let '(fv, fd, x) := inp in
  Ok (vscale jac (kernel fv fd x time normal)).
(** evalQuadrature, quad/EvalQuadrature.hpp:64-76, for vectors. *)
Definition evalQuad (f : list R -> res vect) (q : list (list R) * list R) : res vect :=
  for_each (fun (pw : list R * R) acc => v ← f pw.1; Ok (vadd acc (fun k => v k * pw.2))) (zip q.1 q.2) vzero.

(** AssemblyOptions, AssembleLocalSystem.hpp:24-35: the order of the quadrature for an
    element order; the narrowing to q_o_t is not modelled. *)
Record options := { o_value : nat; o_der : nat }.
Definition q_order (o : options) (EO : nat) : nat := (o_value o * EO + o_der o * (EO - 1))%nat.
(** getReferenceBasisAtBoundaryQuadrature, basisfun/ReferenceElementBasisAtQuadrature.hpp:
    59-93: the quadrature of the side's type, moved to the side; for lines one point of
    weight 1. *)
Definition side_quadrature (t : etype) (side : nat) (ref : list (list R) * list R) : res (list (list R) * list R) :=
  q ← match t with Line => Ok ([[]], [1]) | Quad => getQuadrature Line ref | Hex => getQuadrature Quad ref end;
  pts ← map_res (sidePoint t side) q.1;
  Ok (pts, q.2).

Section integral.
  (** Nodes along an edge for an element order (C70) and reference quadratures (C69). *)
  Context (absc : nat -> list R) (ref : nat -> list (list R) * list R).
  Context (dimension n_equations : nat) (opts : options) (time : R).
  Notation el := (element (list R)).
  Section domain.
    Context (kernel : dkernel).
    (** reduce_element, Integral.hpp:63-77, and evalElementIntegral, 12-30. *)
    Definition element_integral (fa : fields) (e : el) : res vect :=
      if (dimension =? native_dim (el_type e))%nat then
        nvals ← getGloballyIndexed fa (el_nodes e);
        q ← getQuadrature (el_type e) (ref (q_order opts (el_order e)));
        evalQuad (domain_value kernel time (el_type e) (absc (el_order e)) (length (f_inds fa)) (el_verts e) nvals) q
      else Ok vzero.
    (** evalLocalIntegral, 55-80. *)
    Definition local_integral (fa : fields) (x : mesh (list R)) (ids : list nat) (r : res vect) : Prop :=
      mesh_transformReduce true radd (element_integral fa) (m_domains x) ids (Ok vzero) r.
  End domain.
  Section boundary.
    Context (kernel : bkernel).
    (** reduce_element, 90-104, and evalElementBoundaryIntegral, 32-53. *)
    Definition side_integral (fa : fields) (v : el * nat) : res vect :=
      let '(e, side) := v in
      if (dimension =? native_dim (el_type e))%nat then
        nvals ← getGloballyIndexed fa (el_nodes e);
        q ← side_quadrature (el_type e) side (ref (q_order opts (el_order e)));
        evalQuad (boundary_value kernel time (el_type e) side (absc (el_order e)) (length (f_inds fa)) (el_verts e) nvals) q
      else Ok vzero.
    (** evalLocalIntegral for boundaries, 82-108, with transformReduceBoundaries,
        mesh/MeshPartition.hpp:391-410: ids without boundary are left out, each boundary
        is reduced and then the results.  The views of a boundary are one list here; the
        code has one vector [vs] per element type. *)
    Definition local_boundary_integral (fa : fields) (x : mesh (list R)) (ids : list nat) (r : res vect) : Prop :=
      exists parts, Forall2 (fun views p => exists vs, concat vs ≡ₚ views /\ uv_transformReduce true radd (side_integral fa) vs (Ok vzero) p) (omap (fun b => dm_find b (m_bnds x)) ids) parts /\
        gen_sum radd (Ok vzero :: parts) r.
  End boundary.
  (** computeIntegral, 111-125: the all-reduce adds the first n_equations numbers of all
      ranks' results, in some order, and every rank gets them; the rest of the result
      stays zero.  The collective needs a result on every rank. *)
  Definition all_reduce (locals : list (res vect)) (g : vect) : Prop :=
    exists ls, locals = map Ok ls /\ forall k, if (k <? n_equations)%nat then gen_sum Rplus (map (fun v => v k) ls) (g k) else g k = 0.
End integral.
(** doubleQuadratureOrder, NormL2.hpp:10-19; getNormSquareComputer, 21-28; cwiseSqrt, 44, 61. *)
Definition doubleQuadratureOrder (o : options) : options := {| o_value := o_value o * 2; o_der := o_der o * 2 |}.
Definition square_kernel (kernel : dkernel) : dkernel := fun fv fd x time k => kernel fv fd x time k * kernel fv fd x time k.
Definition square_bkernel (kernel : bkernel) : bkernel := fun fv fd x time n k => kernel fv fd x time n k * kernel fv fd x time n k.
Definition norms (g : vect) : vect := fun k => R_sqrt.sqrt (g k).
