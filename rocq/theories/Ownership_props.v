(** C07, C08, C09. *)
From Verif Require Import Base StdAlgo Ownership_model Ownership_spec Ownership_proofs.

(** C07: the constructor throws iff a shared id lies in the owned range ... *)
Theorem ownership_throws_iff_overlap :
  forall b n shared,
    (make_ownership b n shared = Throw <-> exists i, i ∈ shared /\ b <= i < b + n)
    /\ make_ownership b n shared <> UB.
Proof. intros; split; [apply make_throw | apply make_total]. Qed.
Print Assumptions ownership_throws_iff_overlap.
(** ... and otherwise, for distinct shared ids in any order, there is one list
    of all local ids: the owned ones in order, then the shared ones; global and
    local indices are the two directions of this list; anything past the end
    is out of bounds. *)
Theorem ownership_index_bijection :
  forall b n shared so,
    NoDup shared -> make_ownership b n shared = Ok so ->
    exists ids : list nat,
      localSize so = length ids
      /\ (forall lid, getGlobalIndex so lid = match ids !! lid with Some g => Ok g | None => UB end)
      /\ (forall lid g, ids !! lid = Some g <-> (getLocalIndex so g = lid /\ g ∈ ids))
      /\ NoDup ids /\ take n ids = seq b n /\ drop n ids ≡ₚ shared
      /\ (forall g, isOwned so g = true <-> b <= g < b + n)
      /\ (forall g, isShared so g = true <-> g ∈ shared).
Proof. exact make_bijection. Qed.
Print Assumptions ownership_index_bijection.
Example ownership_example :
  exists so, make_ownership 10 3 [20; 5; 13; 2] = Ok so /\ NoDup [20; 5; 13; 2]
    /\ map (getGlobalIndex so) (seq 0 8) = [Ok 10; Ok 11; Ok 12; Ok 2; Ok 5; Ok 13; Ok 20; UB]
    /\ map (getLocalIndex so) [10; 11; 12; 2; 5; 13; 20] = [0; 1; 2; 3; 4; 5; 6].
Proof.
  eexists. split; [vm_compute; reflexivity|]. split; [|split; vm_compute; reflexivity].
  apply (bool_decide_unpack _). vm_compute. exact I.
Qed.
Example ownership_throw_example : make_ownership 10 3 [20; 12] = Throw.
Proof. vm_compute. reflexivity. Qed.

(** C08: the rank computed for a global index is the one and only rank that
    owns it; ranks owning nothing are allowed anywhere. *)
Theorem owner_lookup_correct :
  forall counts i r,
    i < total counts ->
    (get_owner (getOwnershipDist counts) i = r <-> owns counts r i).
Proof. exact get_owner_iff. Qed.
Print Assumptions owner_lookup_correct.
Example owner_lookup_example :
  total [0; 3; 0; 0; 2; 0] = 5
  /\ map (get_owner (getOwnershipDist [0; 3; 0; 0; 2; 0])) [0; 2; 3; 4] = [1; 1; 4; 4].
Proof. vm_compute. auto. Qed.

(** C09: for any number of ranks and any shared ids (distinct on each rank,
    existing globally, not owned by the rank itself - else the constructor
    throws), every execution of the exchange is bounded in length, never
    deadlocks, and ends with all messages received and with tables that are
    correct and mutually consistent: rank a's entry for b is, element by
    element, rank b's entry for a. *)
Theorem neighbour_exchange_correct :
  forall counts shareds sos,
    length counts = length shareds ->
    Forall NoDup shareds ->
    Forall (Forall (fun g => g < total counts)) shareds ->
    make_all counts shareds = Ok sos ->
    marks_in_range (all_outs sos) = true /\
    exists N, forall n st, nsteps nx_step n (nx_init (all_outs sos)) st ->
      n <= N /\
      ((exists st', nx_step st st') \/
       ((forall r x, nx_ranks st !! r = Some x -> nx_done x) /\ nx_net st = [] /\
        length (nx_ranks st) = length counts /\
        forall a x, nx_ranks st !! a = Some x ->
          table_correct counts shareds a (nx_result x) /\
          forall b ids, (b, ids) ∈ nx_result x <-> exists t, all_outs sos !! b = Some t /\ (a, ids) ∈ t)).
Proof. exact exchange_main. Qed.
Print Assumptions neighbour_exchange_correct.
Example neighbour_exchange_example :
  let counts := [2; 0; 3] in let shareds := [[4; 3]; [0; 4]; [1]] in
  length counts = length shareds /\ Forall NoDup shareds
  /\ Forall (Forall (fun g => g < total counts)) shareds
  /\ exists sos, make_all counts shareds = Ok sos
     /\ all_outs sos = [[(2, [3; 4])]; [(0, [0]); (2, [4])]; [(0, [1])]].
Proof.
  cbn zeta. split; [reflexivity|]. split; [|split].
  - apply (bool_decide_unpack _). vm_compute. exact I.
  - apply (bool_decide_unpack _). vm_compute. exact I.
  - eexists. split; vm_compute; reflexivity.
Qed.
