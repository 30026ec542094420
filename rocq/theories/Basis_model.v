(** Model of basisfun/ReferenceBasisFunction.hpp, basisfun/ValueAt.hpp,
    basisfun/ReferenceBasisAtPoints.hpp and math/LobattoRuleAbsc.hpp.  Numbers are
    reals, as in Poly_model.  Points are lists of coordinates.  The order O of an
    element is given by its O + 1 abscissae along an edge; they are computed by
    [lobattoAbsc] below. *)
From Coq Require Import Reals.
From Verif Require Import Base Elem_model Poly_model.
Local Open Scope R_scope.

(** ** math/LobattoRuleAbsc.hpp:11-28.  [roots] is the array returned by roots()
    (Polynomial.hpp:97-122): the eigenvalues found by Eigen, sorted by their real
    part; it is an argument.  The third point of three is the constant 0. *)
Definition lobattoAbsc (n_points : nat) (roots : list R) : list R :=
  match n_points with
  | 2%nat => [-1; 1]
  | 3%nat => [-1; 0; 1]
  | _ => [-1] ++ roots ++ [1]
  end.

(** ** basisfun/ReferenceBasisFunction.hpp *)
(** computeLagrangeLineBasisPolynomial, 28-36. *)
Definition lineBasisPolynomial (absc : list R) (I : nat) : res (list R) :=
  vals ← wr (repeat 0 (length absc)) I 1; lagrangeInterp absc vals.
(** evaluateLineBasisFun, 45-49, 58-63. *)
Definition lineFun (absc : list R) (I : nat) (x : R) : res R := l ← lineBasisPolynomial absc I; Ok (evaluate l x).
(** evaluateLineBasisFunDer, 51-56, 65-70. *)
Definition lineFunDer (absc : list R) (I : nat) (x : R) : res R := l ← lineBasisPolynomial absc I; Ok (evaluate (derivative l) x).
(** A product of two basis functions. *)
Definition times (a b : res R) : res R := a ← a; b ← b; Ok (a * b).
(** evaluateQuadBasisFun, 73-82, and its derivatives, 84-104; nodes_per_edge is the
    number of abscissae. *)
Definition quadFun (absc : list R) (I : nat) (x y : R) : res R :=
  times (lineFun absc (I `mod` length absc) x) (lineFun absc (I / length absc) y).
Definition quadFunDerXi (absc : list R) (I : nat) (x y : R) : res R :=
  times (lineFunDer absc (I `mod` length absc) x) (lineFun absc (I / length absc) y).
Definition quadFunDerEta (absc : list R) (I : nat) (x y : R) : res R :=
  times (lineFun absc (I `mod` length absc) x) (lineFunDer absc (I / length absc) y).
(** evaluateHexBasisFun, 106-116, and its derivatives, 118-152. *)
Definition per_face (absc : list R) : nat := (length absc * length absc)%nat.
Definition hexFun (absc : list R) (I : nat) (x y z : R) : res R :=
  times (quadFun absc (I `mod` per_face absc) x y) (lineFun absc (I / per_face absc) z).
Definition hexFunDerXi (absc : list R) (I : nat) (x y z : R) : res R :=
  times (quadFunDerXi absc (I `mod` per_face absc) x y) (lineFun absc (I / per_face absc) z).
Definition hexFunDerEta (absc : list R) (I : nat) (x y z : R) : res R :=
  times (quadFunDerEta absc (I `mod` per_face absc) x y) (lineFun absc (I / per_face absc) z).
Definition hexFunDerZeta (absc : list R) (I : nat) (x y z : R) : res R :=
  times (quadFun absc (I `mod` per_face absc) x y) (lineFunDer absc (I / per_face absc) z).
(** ReferenceBasisFunction::operator(), 155-197.  [der] is DerDim, 18-24: 0 for the
    function, d for the derivative along the d-th axis.  The other combinations do
    not compile (UB here). *)
Definition refBasisFun (t : etype) (absc : list R) (I der : nat) (p : list R) : res R :=
  match t, der, p with
  | Line, 0, [x] => lineFun absc I x
  | Line, 1, [x] => lineFunDer absc I x
  | Quad, 0, [x; y] => quadFun absc I x y
  | Quad, 1, [x; y] => quadFunDerXi absc I x y
  | Quad, 2, [x; y] => quadFunDerEta absc I x y
  | Hex, 0, [x; y; z] => hexFun absc I x y z
  | Hex, 1, [x; y; z] => hexFunDerXi absc I x y z
  | Hex, 2, [x; y; z] => hexFunDerEta absc I x y z
  | Hex, 3, [x; y; z] => hexFunDerZeta absc I x y z
  | _, _, _ => UB
  end%nat.
Definition n_basis_fun (t : etype) (absc : list R) : nat := nodes_per_element t (length absc - 1).
(** computeRefBasis, 199-211. *)
Definition computeRefBasis (t : etype) (absc : list R) (p : list R) : res (list R) :=
  map_res (fun I => refBasisFun t absc I 0 p) (seq 0 (n_basis_fun t absc)).
(** derivativeByIndex, 213-216. *)
Definition derivativeByIndex (d : nat) : nat := (d + 1)%nat.
(** computeRefBasisDers, 218-233: the rows of the matrix.  The loops are nested the
    other way round; every entry is written once. *)
Definition computeRefBasisDers (t : etype) (absc : list R) (p : list R) : res (list (list R)) :=
  map_res (fun D => map_res (fun I => refBasisFun t absc I (derivativeByIndex D) p) (seq 0 (n_basis_fun t absc)))
    (seq 0 (native_dim t)).

(** ** basisfun/ValueAt.hpp:8-18: a right fold over +. *)
Fixpoint fold_plus (l : list R) : R := match l with [] => 0 | [a] => a | a :: l => a + fold_plus l end.
Definition valueAt (t : etype) (absc : list R) (node_vals : list R) (p : list R) : res R :=
  l ← map_res (fun I => v ← rd node_vals I; b ← refBasisFun t absc I 0 p; Ok (v * b)) (seq 0 (n_basis_fun t absc));
  Ok (fold_plus l).

(** ** basisfun/ReferenceBasisAtPoints.hpp:24-36. *)
Definition evalRefBasisAtPoints (t : etype) (absc : list R) (points : list (list R)) : res (list (list R) * list (list (list R))) :=
  vals ← map_res (computeRefBasis t absc) points;
  ders ← map_res (computeRefBasisDers t absc) points;
  Ok (vals, ders).
