(** Model of mapping/*.hpp, math/RotationMatrix.hpp and of the side quadratures of
    basisfun/ReferenceElementBasisAtQuadrature.hpp.  Numbers are reals.  A matrix is
    the list of its rows.  Eigen's determinant and inverse of matrices of up to three
    rows are written out; the inverse is only used where the determinant is not 0. *)
From Coq Require Import Reals.
From Verif Require Import Base Elem_model Poly_model Basis_model.
Local Open Scope R_scope.

(** ** Eigen *)
Definition ent (M : list (list R)) (i j : nat) : R := nth j (nth i M []) 0.
Definition mk (n m : nat) (f : nat -> nat -> R) : list (list R) := map (fun i => map (f i) (seq 0 m)) (seq 0 n).
Definition dot (n : nat) (f g : nat -> R) : R := foldr (fun i a => f i * g i + a) 0 (seq 0 n).
Definition mmul (n m k : nat) (A B : list (list R)) : list (list R) := mk n k (fun i j => dot m (fun l => ent A i l) (fun l => ent B l j)).
Definition transpose (n m : nat) (A : list (list R)) : list (list R) := mk m n (fun i j => ent A j i).
Definition determinant (n : nat) (A : list (list R)) : R :=
  match n with
  | 1%nat => ent A 0 0
  | 2%nat => ent A 0 0 * ent A 1 1 - ent A 0 1 * ent A 1 0
  | 3%nat => ent A 0 0 * (ent A 1 1 * ent A 2 2 - ent A 1 2 * ent A 2 1) - ent A 0 1 * (ent A 1 0 * ent A 2 2 - ent A 1 2 * ent A 2 0)
             + ent A 0 2 * (ent A 1 0 * ent A 2 1 - ent A 1 1 * ent A 2 0)
  | _ => 0
  end.
(** The inverse: the adjugate over the determinant. *)
Definition minor (A : list (list R)) (i j k l : nat) : R := ent A i j * ent A k l - ent A i l * ent A k j.
Definition adjugate (n : nat) (A : list (list R)) : list (list R) :=
  match n with
  | 1%nat => [[1]]
  | 2%nat => [[ent A 1 1; - ent A 0 1]; [- ent A 1 0; ent A 0 0]]
  | 3%nat => [[minor A 1 1 2 2; - minor A 0 1 2 2; minor A 0 1 1 2]; [- minor A 1 0 2 2; minor A 0 0 2 2; - minor A 0 0 1 2];
              [minor A 1 0 2 1; - minor A 0 0 2 1; minor A 0 0 1 1]]
  | _ => []
  end.
Definition inverse (n : nat) (A : list (list R)) : list (list R) := mk n n (fun i j => ent (adjugate n A) i j / determinant n A).
(** norm and normalize (which leaves a zero vector as it is). *)
Definition norm (n : nat) (v : nat -> R) : R := R_sqrt.sqrt (dot n v v).
Definition vec (n : nat) (v : nat -> R) : list R := map v (seq 0 n).
Definition normalize (n : nat) (v : nat -> R) : list R :=
  vec n (fun i => if Rlt_dec 0 (dot n v v) then v i / norm n v else v i).
Definition cross (u v : nat -> R) (i : nat) : R :=
  match i with
  | 0%nat => u 1%nat * v 2%nat - u 2%nat * v 1%nat
  | 1%nat => u 2%nat * v 0%nat - u 0%nat * v 2%nat
  | _ => u 0%nat * v 1%nat - u 1%nat * v 0%nat
  end.
Definition neg (v : nat -> R) (i : nat) : R := - v i.

(** ** mapping/MapReferenceToPhysical.hpp, mapping/JacobiMat.hpp *)
(** The abscissae of order 1, LobattoRuleAbsc.hpp:16-17. *)
Definition absc1 : list R := lobattoAbsc 2 [].
(** mapToPhysicalSpace, MapReferenceToPhysical.hpp:12-25. *)
Definition mapToPhysicalSpace (t : etype) (vertices : list (list R)) (p : list R) : res (list R) :=
  map_res (fun dim => vals ← map_res (fun v => rd v dim) vertices; valueAt t absc1 vals p) [0; 1; 2]%nat.
(** getNatJacobiMatGenerator, JacobiMat.hpp:15-45: row d, column s.  Every entry is
    accumulated over the vertices in ascending order. *)
Definition jacobiMat (t : etype) (vertices : list (list R)) (p : list R) : res (list (list R)) :=
  map_res (fun d => map_res (fun s =>
    for_each (fun k acc => v ← rd vertices k; x ← rd v s; b ← refBasisFun t absc1 k (derivativeByIndex d) p; Ok (acc + x * b))
      (seq 0 (nodes_per_element t 1)) 0) (seq 0 (native_dim t))) (seq 0 (native_dim t)).
(** mapping/ComputePhysBasisDer.hpp:8-15. *)
Definition computePhysBasisDers (n n_bases : nat) (jacobi_mat ref_ders : list (list R)) : list (list R) :=
  mmul n n n_bases (inverse n jacobi_mat) ref_ders.

(** ** math/RotationMatrix.hpp:10-77 *)
Definition rot3x (ang : R) : list (list R) := [[1; 0; 0]; [0; cos ang; - sin ang]; [0; sin ang; cos ang]].
Definition rot3y (ang : R) : list (list R) := [[cos ang; 0; sin ang]; [0; 1; 0]; [- sin ang; 0; cos ang]].
Definition rot3z (ang : R) : list (list R) := [[cos ang; - sin ang; 0]; [sin ang; cos ang; 0]; [0; 0; 1]].
Definition rot2 (ang : R) : list (list R) := [[cos ang; sin ang]; [- sin ang; cos ang]].
Definition identity (n : nat) : list (list R) := mk n n (fun i j => if (i =? j)%nat then 1 else 0).
(** ** mapping/ReferenceBoundaryToSideMapping.hpp:14-48: rotation and translation. *)
Definition sideMapping (t : etype) (side : nat) : res (list (list R) * list R) :=
  rd match t with
     | Hex => [(rot3x PI, [0; 0; -1]); (identity 3, [0; 0; 1]); (rot3x (- PI / 2), [0; -1; 0]); (rot3x (PI / 2), [0; 1; 0]);
               (rot3y (PI / 2), [-1; 0; 0]); (rot3y (- PI / 2), [1; 0; 0])]
     | Quad => [(rot2 PI, [0; -1]); (identity 2, [0; 1]); (rot2 (PI / 2), [-1; 0]); (rot2 (- PI / 2), [1; 0])]
     | Line => [([[-1]], [-1]); ([[1]], [1])]
     end side.
(** basisfun/ReferenceElementBasisAtQuadrature.hpp:25-57, 86-91: a point of the
    boundary's reference element gets a last coordinate 0 and is rotated and
    translated.  (For lines the boundary point has no coordinates, 77-78.) *)
Definition sidePoint (t : etype) (side : nat) (b : list R) : res (list R) :=
  m ← sideMapping t side;
  let '(rot, trans) := m in
  let n := native_dim t in
  let c i := nth i (b ++ [0]) 0 in
  Ok (map (fun i => dot n (fun j => ent rot i j) c + nth i trans 0) (seq 0 n)).

(** ** mapping/BoundaryIntegralJacobian.hpp:9-28. *)
Definition computeBoundaryIntegralJacobian (t : etype) (side : nat) (J : list (list R)) : res R :=
  match t with
  | Line => Ok 0
  | Quad => m ← sideMapping t side;
            let d := mmul 2 2 2 (transpose 2 2 J) m.1 in Ok (norm 2 (fun i => ent d i 0%nat))
  | Hex => m ← sideMapping t side;
           let d := mmul 3 3 2 (transpose 3 3 J) m.1 in Ok (norm 3 (cross (fun i => ent d i 0%nat) (fun i => ent d i 1%nat)))
  end.
(** ** mapping/BoundaryNormal.hpp:8-64.  Another side leaves the vector
    uninitialised (UB). *)
Definition pair2 (a b : R) (i : nat) : R := match i with 0%nat => a | _ => b end.
Definition computeBoundaryNormal (t : etype) (side : nat) (J : list (list R)) : res (list R) :=
  match t with
  | Line => Ok [if (side =? 0)%nat then -1 else 1]
  | Quad =>
    v ← match side with
        | 0%nat => Ok (pair2 (ent J 0 1) (- ent J 0 0)) | 1%nat => Ok (pair2 (- ent J 0 1) (ent J 0 0))
        | 2%nat => Ok (pair2 (- ent J 1 1) (ent J 1 0)) | 3%nat => Ok (pair2 (ent J 1 1) (- ent J 1 0))
        | _ => UB end;
    Ok (normalize 2 v)
  | Hex =>
    v ← match side with
        | 0%nat => Ok (neg (cross (ent J 0) (ent J 1))) | 1%nat => Ok (cross (ent J 0) (ent J 1))
        | 2%nat => Ok (cross (ent J 0) (ent J 2)) | 3%nat => Ok (neg (cross (ent J 0) (ent J 2)))
        | 4%nat => Ok (neg (cross (ent J 1) (ent J 2))) | 5%nat => Ok (cross (ent J 1) (ent J 2))
        | _ => UB end;
    Ok (normalize 3 v)
  end.
