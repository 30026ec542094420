(** What import and export must achieve. *)
From Verif Require Import Base.

(** Shared entries are stored in ascending order of their global ids, so the
    entry of id [g] is preceded by one entry per smaller shared id. *)
Definition entry_of (shared_ids : list nat) (g : nat) : nat :=
  length (List.filter (fun x => x <? g) shared_ids).

(** The user's buffers on one rank: owned values and shared values, each a
    sequence of columns [stride] apart. *)
Record buffers (V : Type) := {
  b_owned : list V; b_ostride : nat;
  b_shared : list V; b_sstride : nat }.
Arguments b_owned {V} _. Arguments b_ostride {V} _. Arguments b_shared {V} _. Arguments b_sstride {V} _.

(** The values all ranks hold for global index [g] in their shared buffers
    (column [v]), one per rank that shares [g]. *)
Definition contributions {V} (shareds : list (list nat)) (bufs : list (buffers V)) (v g : nat) : list V :=
  omap (fun b => sh ← shareds !! b; bb ← bufs !! b;
                 if decide (g ∈ sh) then b_shared bb !! (v * b_sstride bb + entry_of sh g) else None)
       (seq 0 (length shareds)).
