(** Non-blocking point-to-point messages as used through comm/MpiComm.hpp
    (sendAsync, receiveAsync, Request::waitAll; lines 137-172, 294-304).
    This is the documented MPI semantics, not code of /repo:
    - a posted send and a posted receive match iff source, destination and tag
      agree; among equal keys the earlier posted one matches first;
    - matched messages are delivered in any order and at any time;
    - delivering a message longer than the receive buffer, or outside the
      memory of the destination rank, is an error ([n_err]).
    The payload is captured when the send is posted (the code never modifies a
    send buffer before the request completes). *)
From Verif Require Import Base StdAlgo.

Section mpi.
  Context {V : Type}.
  Inductive act :=
  | ARecv (src tag off len : nat)        (* receiveAsync into cells [off, off+len) *)
  | ASend (dst tag : nat) (data : list V).
  Record msend := { s_src : nat; s_dst : nat; s_tag : nat; s_data : list V }.
  Record mrecv := { r_dst : nat; r_src : nat; r_tag : nat; r_off : nat; r_len : nat }.
  Definition skey (s : msend) : nat * nat * nat := (s_src s, s_dst s, s_tag s).
  Definition rkey (r : mrecv) : nat * nat * nat := (r_src r, r_dst r, r_tag r).
  Record net := {
    n_prog : list (list act);      (* per rank: requests still to be posted, in order *)
    n_mem : list (list V);         (* per rank: memory receives write to *)
    n_sends : list msend;            (* posted, undelivered; in posting order *)
    n_recvs : list mrecv;
    n_err : bool }.
  Definition mk_send (r : nat) (a : act) : option msend :=
    match a with ASend d t data => Some {| s_src := r; s_dst := d; s_tag := t; s_data := data |} | _ => None end.
  Definition mk_recv (r : nat) (a : act) : option mrecv :=
    match a with ARecv s t off len =>
      Some {| r_dst := r; r_src := s; r_tag := t; r_off := off; r_len := len |} | _ => None end.
  Definition fits (s : msend) (r : mrecv) (mem : list (list V)) : bool :=
    match mem !! r_dst r with
    | Some m => (length (s_data s) <=? r_len r) && (r_off r + length (s_data s) <=? length m)
    | None => false
    end.
  Definition deliver (s : msend) (r : mrecv) (mem : list (list V)) : list (list V) :=
    alter (list_inserts (r_off r) (s_data s)) (r_dst r) mem.
  Inductive net_step : net -> net -> Prop :=
  | net_post n r a rest :
      n_prog n !! r = Some (a :: rest) ->
      net_step n {| n_prog := <[r := rest]> (n_prog n); n_mem := n_mem n;
                    n_sends := n_sends n ++ option_list (mk_send r a);
                    n_recvs := n_recvs n ++ option_list (mk_recv r a); n_err := n_err n |}
  | net_deliver n s r s1 s2 r1 r2 :
      n_sends n = s1 ++ s :: s2 -> n_recvs n = r1 ++ r :: r2 ->
      skey s = rkey r ->
      Forall (fun s' => skey s' <> skey s) s1 ->
      Forall (fun r' => rkey r' <> rkey r) r1 ->
      net_step n {| n_prog := n_prog n;
                    n_mem := if fits s r (n_mem n) then deliver s r (n_mem n) else n_mem n;
                    n_sends := s1 ++ s2; n_recvs := r1 ++ r2;
                    n_err := n_err n || negb (fits s r (n_mem n)) |}.
  Definition net_init (progs : list (list act)) (mem : list (list V)) : net :=
    {| n_prog := progs; n_mem := mem; n_sends := []; n_recvs := []; n_err := false |}.
  (** Every rank has posted everything and its waitAll returned. *)
  Definition net_done (n : net) : Prop :=
    Forall (fun p => p = []) (n_prog n) /\ n_sends n = [] /\ n_recvs n = [].
  (** All messages of a set of programs. *)
  Definition sends_of (progs : list (list act)) : list msend :=
    concat (imap (fun r p => omap (mk_send r) p) progs).
  Definition recvs_of (progs : list (list act)) : list mrecv :=
    concat (imap (fun r p => omap (mk_recv r) p) progs).
End mpi.
Arguments act : clear implicits.
Arguments msend : clear implicits.
Arguments net : clear implicits.
