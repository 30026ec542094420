(** Graphs as lists of neighbours, and what programs do with them. *)
From Verif Require Import Base MGraph_model.

(** The compressed form of a graph: where the neighbours of each vertex begin, and the end. *)
Definition offsets (rows : list (list nat)) : list nat :=
  map (fun i => length (concat (take i rows))) (seq 0 (S (length rows))).
(** Operations on values; [None] is an object that was moved from. *)
Inductive vop := VNew (rows : list (list nat)) | VCopy (i : nat) | VAssign (i j : nat) | VMove (i : nat) | VMoveAssign (i j : nat).
(** [None]: the program names an object that does not exist, or copies one that was moved from. *)
Definition vstep (o : vop) (s : list (option (list (list nat)))) : option (list (option (list (list nat)))) :=
  match o with
  | VNew rows => Some (s ++ [Some rows])
  | VCopy i => match s !! i with Some (Some r) => Some (s ++ [Some r]) | _ => None end
  | VAssign i j =>
      match s !! i, s !! j with
      | Some _, Some v => if decide (i = j) then Some s else match v with Some r => Some (<[i := Some r]> s) | None => None end
      | _, _ => None
      end
  | VMove i => match s !! i with Some v => Some (<[i := None]> s ++ [v]) | None => None end
  | VMoveAssign i j =>
      match s !! i, s !! j with
      | Some _, Some v => if decide (i = j) then Some s else Some (<[j := None]> (<[i := v]> s))
      | _, _ => None
      end
  end.
Fixpoint vsteps (l : list vop) (s : list (option (list (list nat)))) : option (list (option (list (list nat)))) :=
  match l with [] => Some s | o :: l => match vstep o s with Some s => vsteps l s | None => None end end.
(** The operation of the code that is meant; METIS hands over the compressed form. *)
Definition run_as (o : vop) : gop :=
  match o with
  | VNew rows => GNew (offsets rows) (concat rows) (length rows)
  | VCopy i => GCopy i
  | VAssign i j => GAssign i j
  | VMove i => GMove i
  | VMoveAssign i j => GMoveAssign i j
  end.
