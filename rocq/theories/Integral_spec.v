(** Vocabulary of C77. *)
From Coq Require Import Reals.
From Verif Require Import Base Ownership_model Elem_model Mesh_model Mesh_spec Poly_spec Basis_spec Gauss_spec Geom_spec Basis_model Geom_model Gauss_model Partition_spec Integral_model.
Local Open Scope R_scope.
(** The mapping of an element to space and its Jacobi matrix (row: reference direction). *)
Definition geometry (t : etype) (verts : list (list R)) (X : list R -> list R) (J : list R -> list (list R)) : Prop :=
  forall p, length p = native_dim t -> mapToPhysicalSpace t verts p = Ok (X p) /\
    forall d s, (d < native_dim t)%nat -> (s < native_dim t)%nat -> partial (fun q => nth s (X q) 0) d p (ent (J p) d s).
(** What a kernel must be given at point [p] of the reference element when field [f] has
    the value [nv I f] at node [I]: the value and the gradient of the polynomial through
    these values.  [G j] is derivative [j] in space: the chain rule holds. *)
Definition sees (t : etype) (absc : list R) (J : list R -> list (list R)) (nv : nat -> nat -> R) (nf : nat) (p fv : list R) (fd : list (list R)) : Prop :=
  length fv = nf /\ length fd = native_dim t /\ Forall (fun row => length row = nf) fd /\
  forall f, (f < nf)%nat -> exists U, is_poly t (length absc) U /\ (forall I q, node_locations t absc !! I = Some q -> U q = nv I f) /\
    nth f fv 0 = U p /\ forall d, (d < native_dim t)%nat -> partial U d p (inner (native_dim t) (fun j => ent fd j f) (ent (J p) d)).
(** Values of fields at nodes [n] on a rank that has node [n] under the number [phi n]: the local
    numbers are the owned ones and the shared ones, field after field. *)
Definition local_ids (own : ownership) : list nat := seq (so_begin own) (so_end own - so_begin own) ++ so_shared own.
Definition holds (own : ownership) (data : list R) (inds : list nat) (N : nat) (phi : nat -> nat) (u : nat -> nat -> R) : Prop :=
  forall f l n, f ∈ inds -> (n < N)%nat -> local_ids own !! l = Some (phi n) -> data !! (l + f * length (local_ids own))%nat = Some (u f n).
(** The sum of a function over a list. *)
Definition over {A} (l : list A) (g : A -> R) : R := foldr (fun a s => g a + s) 0 l.
(** The reference quadrature of order [QO] is made by the eigenvalue solver (C69). *)
Definition solved (QO : nat) (r : list (list R) * list R) : Prop :=
  exists lam V, eigen_of (getRefQuadSize QO) (gauss_matrix ref_a ref_b ref_c) lam V /\ r = getReferenceQuadrature QO lam V.
Definition inside (t : etype) (p : list R) : Prop := length p = native_dim t /\ Forall (fun x => -1 < x < 1) p.
(** [v] is a sum of values of [f] at points inside the reference element of type [t] with
    positive weights, exact for polynomials of degree at most [QO] in each variable. *)
Definition quadrature_of (t : etype) (QO : nat) (f : list R -> R) (v : R) : Prop :=
  (exists pts ws, length pts = length ws /\ Forall (inside t) pts /\ Forall (fun w => 0 < w) ws /\
    v = rsum (length ws) (fun i => nth i ws 0 * f (nth i pts []))) /\
  (is_poly t (S QO) f -> integral_on t f v).
Section contributions.
  Notation el := (element (list R)).
  (** Field [f] of the list [inds] has the value [u f n] at node [n]. *)
  Definition node_value (u : nat -> nat -> R) (inds : list nat) (e : el) (I f : nat) : R := u (nth f inds 0%nat) (nth I (el_nodes e) 0%nat).
  (** What element [e] has to add to an integral over elements of dimension [dim]: the
      integral of the kernel over the element in space, by substitution. *)
  Definition contributes (absc : list R) (QO dim : nat) (kernel : list R -> list (list R) -> list R -> R -> nat -> R) (time : R) (inds : list nat) (u : nat -> nat -> R) (e : el) (r : nat -> R) : Prop :=
    let t := el_type e in
    (dim = native_dim t -> exists X J fv fd, geometry t (el_verts e) X J /\
      (forall p, length p = dim -> det dim (ent (J p)) <> 0 -> sees t absc J (node_value u inds e) (length inds) p (fv p) (fd p)) /\
      forall k, quadrature_of t QO (fun p => det dim (ent (J p)) * kernel (fv p) (fd p) (X p) time k) (r k)) /\
    (dim <> native_dim t -> forall k, r k = 0).
  (** What side [s] of element [e] has to add to an integral over a boundary.  [S] maps
      the side's reference element to that of [e], [area] is the length or area of the
      side in space, [nrm] its outer unit normal. *)
  Definition side_type (t : etype) : etype := match t with Hex => Quad | _ => Line end.
  Definition side_contributes (absc : list R) (QO dim : nat) (kernel : list R -> list (list R) -> list R -> R -> list R -> nat -> R) (time : R) (inds : list nat) (u : nat -> nat -> R) (e : el) (s : nat) (r : nat -> R) : Prop :=
    let t := el_type e in
    (dim = native_dim t -> exists X J S area nrm fv fd, geometry t (el_verts e) X J /\
      (forall b, length b = (dim - 1)%nat -> let p := S b in sidePoint t s b = Ok p /\ length p = dim /\
        0 <= area b /\ (exists T, (forall k i, (k < dim - 1)%nat -> (i < dim)%nat -> partial (fun b => nth i (X (S b)) 0) k b (T k i)) /\ area b * area b = gram (dim - 1) dim T /\
          (0 < det dim (ent (J p)) -> let v i := nth i (nrm b) 0 in length (nrm b) = dim /\ inner dim v v = 1 /\ (forall k, (k < dim - 1)%nat -> inner dim v (T k) = 0) /\ 0 < sgn s * inner dim v (ent (J p) (axis t s)))) /\
        (det dim (ent (J p)) <> 0 -> sees t absc J (node_value u inds e) (length inds) p (fv p) (fd p))) /\
      forall k, quadrature_of (side_type t) QO (fun b => area b * kernel (fv (S b)) (fd (S b)) (X (S b)) time (nrm b) k) (r k)) /\
    (dim <> native_dim t -> forall k, r k = 0).
End contributions.
(** The mesh [x] was partitioned; every rank has its part and the fields [inds] at the
    nodes of its part.  Element orders are positive, the basis has distinct nodes, the
    quadratures come from the eigenvalue solver, vertices are points of space. *)
Record setting (absc : nat -> list R) (ref : nat -> list (list R) * list R) (opts : options) (orders : list nat) (x : mesh (list R)) (N : nat)
    (phi : nat -> nat) (inds : list nat) (u : nat -> nat -> R) (run : list (mesh (list R) * fields)) : Prop := {
  se_mesh : unpartitioned orders x N;
  se_part : partition_of orders x N (length run) (map fst run) phi;
  se_basis : forall O, O ∈ orders -> (1 <= O)%nat /\ length (absc O) = S O /\ NoDup (absc O) /\ solved (q_order opts O) (ref (q_order opts O));
  se_points : forall e, is_elem (m_domains x) e -> Forall (fun v => length v = 3%nat) (el_verts e);
  se_fields : Forall (fun yf : mesh (list R) * fields => f_own yf.2 = m_own yf.1 /\ f_inds yf.2 = inds /\ holds (f_own yf.2) (f_data yf.2) inds N phi u) run }.
(** The elements of the domains [ids]. *)
Definition elems_of (x : mesh (list R)) (ids : list nat) : list (element (list R)) := concat (map (dom_elems (m_domains x)) ids).
