(** Model of util::staggeredAllGather, util/Algorithm.hpp 242-282, run by all
    ranks of a communicator. *)
From Verif Require Import Base StdAlgo.

Section gather.
  Context {T : Type}.
  (** The statements that touch the communicator, the two buffers or the
      callback. *)
  Inductive sg_act :=
  | Begin (root : nat)      (* begin_broadcasting, 257-261 *)
  | Finish                  (* finish_broadcasting, 262-265 *)
  | Process (root : nat).   (* do_processing, 266-269 *)
  (** 271-279: the sequence of these statements for comm_size = [n]. *)
  Definition sg_body (n : nat) : list sg_act :=
    [Begin 0]
    ++ concat (map (fun send_rank => [Finish; Begin send_rank; Process (send_rank - 1)]) (seq 1 (n - 1)))
    ++ [Finish; Process (n - 1)].

  (** State of one rank.  [sg_started]: the (root, number of elements) arguments
      of the broadcasts it has called, in order.  [sg_pend]: the state of
      [request]: null, active, or complete.  [sg_log]: the callback
      invocations. *)
  Inductive req := Null | Active | Complete.
  Record sg_rank := {
    sg_prog : list sg_act; sg_sizes : list nat; sg_started : list (nat * nat); sg_pend : req;
    sg_recv : list T; sg_proc : list T; sg_log : list (nat * list T) }.
  (** Lines 246-254 on rank [r].  The all-gather of the sizes is modelled by its
      effect.  [fill] and [fill'] are the (uninitialised) contents of the two
      new buffers. *)
  Definition sg_sizes_of (datas : list (list T)) (r : nat) : list nat := <[r := 0]> (map length datas).
  Definition sg_start (datas : list (list T)) (r : nat) (fill fill' : nat -> T) : sg_rank :=
    let sizes := sg_sizes_of datas r in
    let max_recv_sz := foldr Nat.max 0 sizes in
    {| sg_prog := sg_body (length datas); sg_sizes := sizes; sg_started := []; sg_pend := Null;
       sg_recv := map fill (seq 0 max_recv_sz); sg_proc := map fill' (seq 0 max_recv_sz); sg_log := [] |}.

  (** span.first(n) and the range constructor of 267: reading past the end of a
      buffer is UB. *)
  Definition first (l : list T) (n : nat) : res (list T) :=
    if n <=? length l then Ok (take n l) else UB.
  (** One statement on rank [me].  [wait] on an active request blocks, so
      [Finish] is only executed on a completed (or null) request. *)
  Definition sg_exec (datas : list (list T)) (me : nat) (a : sg_act) (rest : list sg_act) (x : sg_rank) : res sg_rank :=
    match a with
    | Begin root =>
      len ← (if me =? root then d ← rd datas me; Ok (length d)
             else s ← rd (sg_sizes x) root; if s <=? length (sg_recv x) then Ok s else UB);
      match sg_pend x with
      | Null => Ok {| sg_prog := rest; sg_sizes := sg_sizes x; sg_started := sg_started x ++ [(root, len)];
                      sg_pend := Active; sg_recv := sg_recv x; sg_proc := sg_proc x; sg_log := sg_log x |}
      | _ => UB  (* would drop an active request *)
      end
    | Finish =>
      Ok {| sg_prog := rest; sg_sizes := sg_sizes x; sg_started := sg_started x; sg_pend := Null;
            sg_recv := sg_proc x; sg_proc := sg_recv x; sg_log := sg_log x |}
    | Process root =>
      d ← (if me =? root then rd datas me
           else s ← rd (sg_sizes x) root; first (sg_proc x) s);
      Ok {| sg_prog := rest; sg_sizes := sg_sizes x; sg_started := sg_started x; sg_pend := sg_pend x;
            sg_recv := sg_recv x; sg_proc := sg_proc x; sg_log := sg_log x ++ [(root, d)] |}
    end.
  Record sg_state := { sg_ranks : list sg_rank; sg_bad : bool }.
  Definition sg_init (datas : list (list T)) (fill fill' : nat -> nat -> T) : sg_state :=
    {| sg_ranks := imap (fun r _ => sg_start datas r (fill r) (fill' r)) datas; sg_bad := false |}.

  (** MPI_Ibcast (documented semantics, not code of /repo): the i-th broadcast
      of one rank matches the i-th broadcast of every other rank.  A rank's
      broadcast can complete once the root has called it; an implementation may
      also wait for all ranks ([sync] = true).  Roots and sizes must agree, otherwise
      the program is erroneous.  Completion on a non-root rank writes the root's
      data to the receive buffer. *)
  Definition last_start (x : sg_rank) : option (nat * nat) := last (sg_started x).
  Inductive sg_step (sync : bool) (datas : list (list T)) (s : sg_state) : sg_state -> Prop :=
  | sg_run me x a rest :
      sg_ranks s !! me = Some x -> sg_prog x = a :: rest ->
      (a = Finish -> sg_pend x <> Active) ->
      sg_step sync datas s
        match sg_exec datas me a rest x with
        | Ok x' => {| sg_ranks := <[me := x']> (sg_ranks s); sg_bad := sg_bad s |}
        | _ => {| sg_ranks := sg_ranks s; sg_bad := true |}
        end
  | sg_complete me x root len y root' len' :
      sg_ranks s !! me = Some x -> sg_pend x = Active ->
      last_start x = Some (root, len) ->
      sg_ranks s !! root = Some y ->
      sg_started y !! (length (sg_started x) - 1) = Some (root', len') ->
      (sync = true -> Forall (fun z => length (sg_started x) <= length (sg_started z)) (sg_ranks s)) ->
      sg_step sync datas s
        {| sg_ranks := <[me := {| sg_prog := sg_prog x; sg_sizes := sg_sizes x; sg_started := sg_started x;
                                  sg_pend := Complete;
                                  sg_recv := if me =? root then sg_recv x
                                             else list_inserts 0 (default [] (datas !! root)) (sg_recv x);
                                  sg_proc := sg_proc x; sg_log := sg_log x |}]> (sg_ranks s);
           sg_bad := sg_bad s || negb ((root =? root') && (len =? len')) |}.
  (** Every rank has returned from staggeredAllGather. *)
  Definition sg_done (s : sg_state) : Prop := Forall (fun x => sg_prog x = []) (sg_ranks s).
End gather.
Arguments sg_rank : clear implicits.
Arguments sg_state : clear implicits.
