(** Model of the scope guards, util/ScopeGuards.hpp. *)
From Verif Require Import Base StdAlgo.

(** ** MpiScopeGuard (16-74) and KokkosScopeGuard (76-112). *)
(** State of the library; the count says how often it has been finalised. *)
Inductive lib := NotInit | Active | Finalised.
Record world := {
  w_lib : lib;
  w_finals : nat;                (* calls of MPI_Finalize / Kokkos::finalize *)
  w_inits : nat;                 (* initialisations done by guards *)
  w_guards : list (option bool)  (* guard objects: m_is_owning, None once destroyed *)
}.
Inductive guard_op :=
| Construct (supported : bool)   (* MPI: does the library provide the threading level *)
| MoveConstruct (src : nat)
| MoveAssign (dst src : nat)
| Destroy (g : nat)
| ExternalInit.                  (* the application initialises the library itself *)
(** [mpi]: true for MpiScopeGuard, false for KokkosScopeGuard.  Constructing an
    MpiScopeGuard after MPI_Finalize terminates the program (57-62, 66; Throw);
    if the threading level is insufficient the constructor throws after having
    initialised MPI, so no guard object comes into being (42-50, 72).  In
    Kokkos is_initialized() is false again after finalize() and initialising a
    second time aborts (Throw).  A constructor that throws ends the modelled
    history except in [construct_state]. *)
Definition construct_state (mpi supported : bool) (w : world) : world * bool :=
  match w_lib w with
  | NotInit =>
    if mpi && negb supported then ({| w_lib := Active; w_finals := w_finals w; w_inits := S (w_inits w); w_guards := w_guards w |}, false)
    else ({| w_lib := Active; w_finals := w_finals w; w_inits := S (w_inits w); w_guards := w_guards w ++ [Some true] |}, true)
  | Active =>
    if mpi && negb supported then (w, false)
    else ({| w_lib := Active; w_finals := w_finals w; w_inits := w_inits w; w_guards := w_guards w ++ [Some false] |}, true)
  | Finalised => (w, false)
  end.
(** ~MpiScopeGuard, 29-33; ~KokkosScopeGuard, 104-108.  Finalising a library
    that is not active is an error of the library (UB). *)
Definition destroy_guard (w : world) (g : nat) : res world :=
  match w_guards w !! g with
  | Some (Some false) => Ok {| w_lib := w_lib w; w_finals := w_finals w; w_inits := w_inits w; w_guards := <[g := None]> (w_guards w) |}
  | Some (Some true) =>
    match w_lib w with
    | Active => Ok {| w_lib := Finalised; w_finals := S (w_finals w); w_inits := w_inits w; w_guards := <[g := None]> (w_guards w) |}
    | _ => UB
    end
  | _ => UB
  end.
Definition guard_step (mpi : bool) (w : world) (o : guard_op) : res world :=
  match o with
  | Construct sup => let r := construct_state mpi sup w in if r.2 then Ok r.1 else Throw
  | MoveConstruct src =>          (* 22, 97: std::exchange(other.m_is_owning, false) *)
    match w_guards w !! src with
    | Some (Some b) => Ok {| w_lib := w_lib w; w_finals := w_finals w; w_inits := w_inits w;
                             w_guards := <[src := Some false]> (w_guards w) ++ [Some b] |}
    | _ => UB
    end
  | MoveAssign dst src =>         (* 23-28, 98-103 *)
    match w_guards w !! dst, w_guards w !! src with
    | Some (Some _), Some (Some b) =>
      if dst =? src then Ok w
      else Ok {| w_lib := w_lib w; w_finals := w_finals w; w_inits := w_inits w;
                 w_guards := <[dst := Some b]> (<[src := Some false]> (w_guards w)) |}
    | _, _ => UB
    end
  | Destroy g => destroy_guard w g
  | ExternalInit => match w_lib w with
                    | NotInit => Ok {| w_lib := Active; w_finals := w_finals w; w_inits := w_inits w; w_guards := w_guards w |}
                    | _ => UB
                    end
  end.
Definition guard_run (mpi : bool) (w : world) (ops : list guard_op) : res world := for_each (fun o w => guard_step mpi w o) ops w.
Definition world0 : world := {| w_lib := NotInit; w_finals := 0; w_inits := 0; w_guards := [] |}.

(** ** MaxParallelismGuard (114-183), compiled with OpenMP. *)
(** getCurrentMaxPar() (152-156), the values of the living TBB global_control
    objects (TBB's limit is the least of them and the hardware limit), OpenMP's
    thread number. *)
Record par_state := { p_cur : nat; p_tbb : list nat; p_omp : nat }.
(** The guard: m_previous, and if m_thread_guards is engaged the control value
    and OpenMP's previous thread number. *)
Record par_guard := { pg_prev : nat; pg_thr : option (nat * nat) }.
(** Constructor, 159-167; OpenMPThreadGuard 119-122; ThreadGuards 141-144. *)
Definition par_construct (s : par_state) (max_threads : nat) : par_state * par_guard :=
  let m := Nat.max max_threads 1 in
  if m <? p_cur s
  then ({| p_cur := m; p_tbb := m :: p_tbb s; p_omp := m |}, {| pg_prev := p_cur s; pg_thr := Some (m, p_omp s) |})
  else (s, {| pg_prev := p_cur s; pg_thr := None |}).
Fixpoint remove1 (x : nat) (l : list nat) : list nat :=
  match l with [] => [] | y :: l => if x =? y then l else y :: remove1 x l end.
(** Destructor, 173-177, followed by that of m_thread_guards. *)
Definition par_destroy (s : par_state) (g : par_guard) : par_state :=
  match pg_thr g with
  | Some (m, omp) => {| p_cur := pg_prev g; p_tbb := remove1 m (p_tbb s); p_omp := omp |}
  | None => s
  end.
Definition par0 (hw omp : nat) : par_state := {| p_cur := hw; p_tbb := []; p_omp := omp |}.
(** The limit TBB applies. *)
Definition tbb_limit (hw : nat) (s : par_state) : nat := foldr Nat.min hw (p_tbb s).

(** Histories of nested guards: Open constructs, Close destroys the youngest. *)
Inductive par_op := Open (max_threads : nat) | Close.
Fixpoint par_run (s : par_state) (stack : list par_guard) (ops : list par_op) : res (par_state * list par_guard) :=
  match ops with
  | [] => Ok (s, stack)
  | Open n :: ops => let r := par_construct s n in par_run r.1 (r.2 :: stack) ops
  | Close :: ops => match stack with [] => UB | g :: stack => par_run (par_destroy s g) stack ops end
  end.
