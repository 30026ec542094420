(** C10, C11, C13, C14. *)
From Verif Require Import Base StdAlgo Ownership_model Ownership_spec Mpi_model
  ImportExport_spec ImportExport_model ImportExport_proofs ImportExport_world.

(** C10: for any number of ranks, any ownership, any number of vectors, any
    strides with room for a column, any values and any order in which the
    packing threads run: posting succeeds on every rank; every execution of
    the resulting communication is bounded, error free and never deadlocks;
    and when it is over each shared entry holds the owner's value, and nothing
    else in the shared buffers changed (owned buffers are only read). *)
Theorem import_correct :
  forall (V : Type) counts shareds sos st nv counter (bufs : list (buffers V)) ies orders,
    counts <> [] -> length counts = length shareds -> Forall NoDup shareds ->
    Forall (Forall (fun g => g < total counts)) shareds ->
    make_all counts shareds = Ok sos ->
    rtc nx_step (nx_init (all_outs sos)) st -> (forall r x, nx_ranks st !! r = Some x -> nx_done x) ->
    configured sos st nv counter bufs ies -> roomy counts shareds nv bufs ->
    (forall r ie, ies !! r = Some ie -> orders r ≡ₚ work nv (length (getOwnedInds (ie_ctx ie)))) ->
    exists progs, length progs = length counts
      /\ (forall r ie, ies !! r = Some ie -> exists p, progs !! r = Some p /\ import_post (orders r) ie = Ok p)
      /\ exists N, forall k n, nsteps net_step k (net_init progs (map b_shared bufs)) n ->
        k <= N /\ n_err n = false /\
        ((exists n', net_step n n') \/
         (net_done n /\ forall b bb sh m, bufs !! b = Some bb -> shareds !! b = Some sh -> n_mem n !! b = Some m ->
            length m = length (b_shared bb)
            /\ (forall v g a ba, v < nv -> g ∈ sh -> owns counts a g -> bufs !! a = Some ba ->
                  exists x, m !! (v * b_sstride bb + entry_of sh g) = Some x
                    /\ b_owned ba !! (v * b_ostride ba + (g - first_owned counts a)) = Some x)
            /\ (forall p, (forall v g, v < nv -> g ∈ sh -> p <> v * b_sstride bb + entry_of sh g) ->
                  m !! p = b_shared bb !! p))).
Proof. intros; eapply client_import; eassumption. Qed.
Print Assumptions import_correct.

(** C11: likewise for export; afterwards, for any combine operation (applied
    indivisibly) and any order of the unpacking threads, each owned entry is
    its old value combined with the values of all ranks sharing it, each
    exactly once, in some order; entries shared by nobody are unchanged. *)
Theorem export_correct :
  forall (V : Type) counts shareds sos st nv counter (bufs : list (buffers V)) ies,
    counts <> [] -> length counts = length shareds -> Forall NoDup shareds ->
    Forall (Forall (fun g => g < total counts)) shareds ->
    make_all counts shareds = Ok sos ->
    rtc nx_step (nx_init (all_outs sos)) st -> (forall r x, nx_ranks st !! r = Some x -> nx_done x) ->
    configured sos st nv counter bufs ies -> roomy counts shareds nv bufs ->
    exists progs, length progs = length counts
      /\ (forall r ie, ies !! r = Some ie -> exists p, progs !! r = Some p /\ export_post ie = Ok p)
      /\ exists N, forall k n, nsteps net_step k (net_init progs (map ie_pack ies)) n ->
        k <= N /\ n_err n = false /\
        ((exists n', net_step n n') \/
         (net_done n /\ forall a ba ie pack order combine,
            bufs !! a = Some ba -> ies !! a = Some ie -> n_mem n !! a = Some pack ->
            order ≡ₚ work nv (length (getOwnedInds (ie_ctx ie))) ->
            exists owned', unpack combine order pack ie = Ok owned'
            /\ length owned' = length (b_owned ba)
            /\ (forall v g old, v < nv -> owns counts a g ->
                  b_owned ba !! (v * b_ostride ba + (g - first_owned counts a)) = Some old ->
                  exists contribs, contribs ≡ₚ contributions shareds bufs v g
                    /\ owned' !! (v * b_ostride ba + (g - first_owned counts a)) = Some (foldl combine old contribs))
            /\ (forall p, (forall v g b sh, v < nv -> owns counts a g -> shareds !! b = Some sh -> g ∈ sh ->
                      p <> v * b_ostride ba + (g - first_owned counts a)) ->
                  owned' !! p = b_owned ba !! p))).
Proof. intros; eapply client_export; eassumption. Qed.
Print Assumptions export_correct.

(** Two ranks, two vectors; rank 0 owns 0 and 1 and shares 2, rank 1 owns 2
    and shares 1 and 0. *)
Example import_export_example :
  let counts := [2; 1] in let shareds := [[2]; [1; 0]] in
  let bufs := [ {| b_owned := [10; 11; 20; 21]; b_ostride := 2; b_shared := [12; 22]; b_sstride := 1 |};
                {| b_owned := [32; 42]; b_ostride := 1; b_shared := [30; 31; 7; 40; 41]; b_sstride := 3 |} ] in
  exists sos st ies,
    Forall NoDup shareds /\ Forall (Forall (fun g => g < total counts)) shareds
    /\ make_all counts shareds = Ok sos
    /\ rtc nx_step (nx_init (all_outs sos)) st /\ (forall r x, nx_ranks st !! r = Some x -> nx_done x)
    /\ configured sos st 2 7 bufs ies /\ roomy counts shareds 2 bufs
    /\ map (fun ie => import_post (work 2 (length (getOwnedInds (ie_ctx ie)))) ie) ies
       = [ Ok [ARecv 1 (makeTag 7 0) 0 1; ARecv 1 (makeTag 7 1) 1 1; ASend 1 (makeTag 7 0) [10; 11]; ASend 1 (makeTag 7 1) [20; 21]];
           Ok [ARecv 0 (makeTag 7 0) 0 2; ARecv 0 (makeTag 7 1) 3 2; ASend 0 (makeTag 7 0) [32]; ASend 0 (makeTag 7 1) [42]] ]
    /\ contributions shareds bufs 1 0 = [40].
Proof.
  cbn zeta. eexists _, {| nx_ranks := [ {| nx_to_send := []; nx_recv := [(1, Some [0; 1])] |};
                                        {| nx_to_send := []; nx_recv := [(0, Some [2])] |} ]; nx_net := [] |}, _.
  split; [apply (bool_decide_unpack _); vm_compute; exact I|].
  split; [apply (bool_decide_unpack _); vm_compute; exact I|].
  split; [vm_compute; reflexivity|].
  split.
  { eapply rtc_l; [eapply (nx_send _ 0); vm_compute; reflexivity|].
    eapply rtc_l; [eapply (nx_send _ 1); vm_compute; reflexivity|].
    eapply rtc_l; [eapply (nx_take _ 0 _ 0 1 [0; 1] [(0, 1, [2])] []); [vm_compute; reflexivity..|]; repeat constructor; cbn; congruence|].
    eapply rtc_l; [eapply (nx_take _ 1 _ 0 0 [2] [] []); [vm_compute; reflexivity..|]; repeat constructor; cbn; congruence|].
    apply rtc_refl. }
  split.
  { intros r x Hx. destruct r as [|[|r]]; cbn in Hx; [injection Hx as <-..|discriminate]; split; cbn; repeat constructor; discriminate. }
  split.
  { split; [|split].
    - reflexivity.
    - instantiate (1 := [_; _]). reflexivity.
    - intros r so out x b ie Hso Hout Hx Hb Hie.
      destruct r as [|[|r]]; cbn in Hie; [| |discriminate]; injection Hie as <-;
        vm_compute in Hso; injection Hso as <-; vm_compute in Hout; injection Hout as <-;
        cbn in Hx; injection Hx as <-; cbn in Hb; injection Hb as <-; exists 2, 0; vm_compute; reflexivity. }
  split; [|split; vm_compute; reflexivity].
  intros r c sh b Hc Hsh Hb. destruct r as [|[|r]]; cbn in Hc, Hsh, Hb; [| |discriminate];
    injection Hc as <-; injection Hsh as <-; injection Hb as <-; cbn; lia.
Qed.

(** C13: every tag fits in 20 bits, and two tags agree only for the same
    vector and creation numbers equal modulo 256. *)
Theorem tags_distinct :
  forall c1 v1 c2 v2, (N.of_nat v1 < 4096)%N -> (N.of_nat v2 < 4096)%N ->
    (makeTag c1 v1 = makeTag c2 v2 <-> v1 = v2 /\ (c1 mod 256 = c2 mod 256)%N)
    /\ (N.of_nat (makeTag c1 v1) < 2 ^ 20)%N.
Proof. exact tags_main. Qed.
Print Assumptions tags_distinct.
(** Objects created 256 creations apart do collide. *)
Example tags_collide : makeTag 1 5 = makeTag 257 5 /\ makeTag 1 5 <> makeTag 2 5 /\ makeTag 1 5 <> makeTag 1 6.
Proof. vm_compute. split; [reflexivity|split; discriminate]. Qed.

(** C14 as stated is false.  A buffer accepted for one vector is overrun after
    the number of vectors is raised (1); a stride smaller than the column
    makes indices leave the span of a column (2); with zero vectors the
    required size wraps around and any later number of vectors overruns (3). *)
Theorem accepted_buffers_refuted :
  let so := {| so_begin := 0; so_end := 3; so_shared := [5] |} in
  let c := make_ctx so [(1, [5])] [(1, [0; 2])] in
  (exists ie ie', setup c 2 1 1 0 [10; 11; 12] 3 [0] 1 = Ok ie /\ setNumVecs 2 ie = Ok ie'
     /\ import_post (work 2 2) ie' = UB)
  /\ (exists ie, setup c 1 1 1 0 [10; 11; 12] 1 [0] 1 = Ok ie /\ import_post (work 1 2) ie = UB)
  /\ (exists ie ie', setup c 1 0 1 0 [] 3 [0] 1 = Ok ie /\ setNumVecs 1 ie = Ok ie'
     /\ import_post (work 1 2) ie' = UB).
Proof.
  cbn zeta. split; [|split].
  - eexists _, _. split; [vm_compute; reflexivity|]. split; [vm_compute; reflexivity|]. vm_compute. reflexivity.
  - eexists. split; vm_compute; reflexivity.
  - eexists _, _. split; [vm_compute; reflexivity|]. split; [vm_compute; reflexivity|]. vm_compute. reflexivity.
Qed.
Print Assumptions accepted_buffers_refuted.
(** What holds: if the strides have room for a column, the sizes do not
    overflow 64 bits and the number of vectors at the time of posting is at
    most the one the buffers were accepted with, then posting an import or an
    export and unpacking succeed without leaving any buffer. Missing from the
    full statement: configurations without these three conditions. *)
Theorem accepted_buffers_partial :
  forall (V : Type) so (out ins : nbr_info) nvmax nv nv' counter (fill : V) ob os sb ss ie ie',
    Forall (fun e => e.2 <> []) out ->
    setup (make_ctx so out ins) nvmax nv counter fill ob os sb ss = Ok ie ->
    num_owned_needed (make_ctx so out ins) <= os -> getNumSharedInds (make_ctx so out ins) <= ss ->
    (Z.of_nat nv * Z.of_nat os + Z.of_nat os < 2 ^ 64)%Z ->
    (Z.of_nat nv * Z.of_nat ss + Z.of_nat ss < 2 ^ 64)%Z ->
    nv' <= nv -> setNumVecs nv' ie = Ok ie' ->
    forall order, order ≡ₚ work nv' (length (getOwnedInds (make_ctx so out ins))) ->
    (exists p, import_post order ie' = Ok p
       /\ forall src tag off len, ARecv src tag off len ∈ p -> off + len <= length sb)
    /\ (exists p, export_post ie' = Ok p
       /\ forall src tag off len, ARecv src tag off len ∈ p -> off + len <= length (ie_pack ie'))
    /\ (forall combine pack, length pack = length (ie_pack ie') -> exists ob', unpack combine order pack ie' = Ok ob').
Proof. exact @bounds_main. Qed.
Print Assumptions accepted_buffers_partial.
Example accepted_buffers_example :
  let so := {| so_begin := 0; so_end := 3; so_shared := [5] |} in
  let c := make_ctx so [(1, [5])] [(1, [0; 2])] in
  exists ie ie', setup c 3 2 1 0 [10; 11; 12; 9; 20; 21; 22] 4 [0; 0] 1 = Ok ie /\ setNumVecs 1 ie = Ok ie'
    /\ num_owned_needed c = 3 /\ getNumSharedInds c = 1
    /\ import_post (work 1 2) ie' = Ok [ARecv 1 (makeTag 1 0) 0 1; ASend 1 (makeTag 1 0) [10; 12]].
Proof.
  cbn zeta. eexists _, _. split; [vm_compute; reflexivity|]. split; [vm_compute; reflexivity|].
  split; [vm_compute; reflexivity|]. split; vm_compute; reflexivity.
Qed.

(** A rank with nothing to communicate whose empty buffers have null data
    pointers cannot post: the calls that set the buffers succeed but posting
    throws "must be called before". *)
Theorem import_without_neighbours_refuted :
  let c := make_ctx {| so_begin := 0; so_end := 0; so_shared := [] |} [] [] in
  exists ie ie1 ie2 : impexp nat,
    make_impexp c 1 1 0 = Ok ie /\ setOwned true [] 0 ie = Ok ie1 /\ setShared true [] 0 ie1 = Ok ie2
    /\ import_post [] ie2 = Throw /\ export_post ie2 = Throw.
Proof. cbn zeta. do 3 eexists. do 4 (split; [vm_compute; reflexivity|]). vm_compute. reflexivity. Qed.
Print Assumptions import_without_neighbours_refuted.
