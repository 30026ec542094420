(** Model of util/SegmentedOwnership.hpp.  Global ids are natural numbers
    (the code uses unsigned 64-bit node ids and non-negative signed dof ids;
    overflow of owned_begin + num_owned is not modelled). *)
From Verif Require Import Base StdAlgo.

(** SegmentedOwnership.hpp:110-112 (data members). *)
Record ownership := { so_begin : nat; so_end : nat; so_shared : list nat }.
(** isOwned, 32. *)
Definition isOwned (so : ownership) (i : nat) : bool :=
  (so_begin so <=? i) && (i <? so_end so).
(** Constructor, 20-28: throws if a shared id is owned, then sorts. *)
Definition make_ownership (owned_begin num_owned : nat) (shared : list nat) : res ownership :=
  let so := {| so_begin := owned_begin; so_end := owned_begin + num_owned; so_shared := shared |} in
  _ ← throwing_assert (forallb (fun i => negb (isOwned so i)) shared);
  Ok {| so_begin := so_begin so; so_end := so_end so; so_shared := sort shared |}.
(** owned(), 30: iota view; its size. *)
Definition numOwned (so : ownership) : nat := so_end so - so_begin so.
(** isShared, 33. *)
Definition isShared (so : ownership) (i : nat) : bool := binary_search (so_shared so) i.
(** localSize, 34. *)
Definition localSize (so : ownership) : nat := numOwned so + length (so_shared so).
(** getLocalIndex, 35-41. *)
Definition getLocalIndex (so : ownership) (gid : nat) : nat :=
  if isOwned so gid then gid - so_begin so
  else numOwned so + lower_bound (so_shared so) gid.
(** getGlobalIndex, 42-45. *)
Definition getGlobalIndex (so : ownership) (lid : nat) : res nat :=
  if lid <? numOwned so then Ok (so_begin so + lid)
  else rd (so_shared so) (lid - numOwned so).

(** getOwnershipDist, 53-60: the all-gather collects the owned counts of all
    ranks, here an argument in rank order. *)
Definition getOwnershipDist (num_owned : list nat) : list nat := inclusive_scan 0 num_owned.

(** NeighborInfo, 50: std::map<int, vector>, as the list of its entries in key order. *)
Notation nbr_info := (list (nat * list nat)).
(** retval[k].push_back(v) of line 70. *)
Fixpoint map_push (k v : nat) (m : nbr_info) : nbr_info :=
  match m with
  | [] => [(k, [v])]
  | (k', l) :: m' =>
    if k <? k' then (k, [v]) :: m
    else if k =? k' then (k', l ++ [v]) :: m'
    else (k', l) :: map_push k v m'
  end.
(** get_owner, 65-67 (the same expression occurs in
    algsys/SparsityGraph.hpp:214-219 and bcs/PeriodicBC.hpp:267-322). *)
Definition get_owner (own_dist : list nat) (i : nat) : nat := upper_bound own_dist i.
(** computeOutNbrInfo, 63-72. *)
Definition computeOutNbrInfo (so : ownership) (own_dist : list nat) : nbr_info :=
  foldl (fun m s => map_push (get_owner own_dist s) s m) [] (so_shared so).

(** computeInNbrInfo, 75-107, run by all ranks.
    [outs] holds every rank's out_nbr_info.

    Lines 78-86: mark destination ranks (ArrayOwner::at throws when out of
    range), all-to-all exchange of the marks (an MPI collective, modelled by
    its effect), and one empty entry per rank that marked us. *)
Definition in_nbr_keys (outs : list nbr_info) (r : nat) : list nat :=
  List.filter (fun s => match outs !! s with
                        | Some m => bool_decide (r ∈ m.*1)
                        | None => false end) (seq 0 (length outs)).
Definition marks_in_range (outs : list nbr_info) : bool :=
  forallb (fun m => forallb (fun k => k <? length outs) m.*1) outs.

(** Lines 87-106 as a transition system.  Per rank: the messages it has still
    to send, and its table of in-neighbours with the indices received so far
    ([None] while the receive is not posted).  [nx_net] are the messages sent
    and not yet taken, in posting order: (source, destination, payload). *)
Record nx_rank := { nx_to_send : nbr_info; nx_recv : list (nat * option (list nat)) }.
Record nx_state := { nx_ranks : list nx_rank; nx_net : list (nat * nat * list nat) }.
Definition nx_init (outs : list nbr_info) : nx_state :=
  {| nx_ranks := imap (fun r out => {| nx_to_send := out;
        nx_recv := map (fun s => (s, None)) (in_nbr_keys outs r) |}) outs;
     nx_net := [] |}.
(** [nx_send]: lines 89-90, sendAsync of the next entry.
    [nx_take]: lines 91-105, probeAsync found the first message from in-neighbour
    [s]; the buffer is resized to its size and the receive posted.  A probe that
    answers "not ready" changes nothing and is not a step.  The model lets the
    rank probe its neighbours in any order, the code in repeated sweeps. *)
Inductive nx_step : nx_state -> nx_state -> Prop :=
| nx_send st r x d ids rest :
    nx_ranks st !! r = Some x -> nx_to_send x = (d, ids) :: rest ->
    nx_step st {| nx_ranks := <[r := {| nx_to_send := rest; nx_recv := nx_recv x |}]> (nx_ranks st);
                  nx_net := nx_net st ++ [(r, d, ids)] |}
| nx_take st r x i s ids net1 net2 :
    nx_ranks st !! r = Some x -> nx_to_send x = [] ->
    nx_recv x !! i = Some (s, None) ->
    nx_net st = net1 ++ (s, r, ids) :: net2 ->
    Forall (fun m => (m.1.1, m.1.2) <> (s, r)) net1 ->
    nx_step st {| nx_ranks := <[r := {| nx_to_send := []; nx_recv := <[i := (s, Some ids)]> (nx_recv x) |}]> (nx_ranks st);
                  nx_net := net1 ++ net2 |}.
(** The rank has left the loop of line 92 and returns its table (line 107). *)
Definition nx_done (x : nx_rank) : Prop :=
  nx_to_send x = [] /\ Forall (fun e => e.2 <> None) (nx_recv x).
Definition nx_result (x : nx_rank) : nbr_info :=
  map (fun e => (e.1, default [] e.2)) (nx_recv x).

(** Every rank of a communicator builds its ownership object from its first
    index, its number of owned indices and its shared ids: the convention of
    line 11, "rank i owns elements [e_i, e_{i+1}), where e_0 = 0". *)
Definition make_all (counts : list nat) (shareds : list (list nat)) : res (list ownership) :=
  map_res (fun e => make_ownership e.1 e.2.1 e.2.2)
    (zip (exclusive_scan 0 counts) (zip counts shareds)).
(** getOwnershipDist + computeOutNbrInfo on every rank (lines 53-72). *)
Definition all_outs (sos : list ownership) : list nbr_info :=
  map (fun so => computeOutNbrInfo so (getOwnershipDist (map numOwned sos))) sos.
