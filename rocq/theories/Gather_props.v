(** Property C15: the staggered all-gather.  [datas] holds the data each rank
    passes in, in rank order. *)
From Verif Require Import Base StdAlgo Gather_model Gather_proofs.

(** In every reachable state: no out-of-bounds access, overwritten request or
    mismatched broadcast has happened; and when all ranks have returned, every
    rank's callback has been invoked exactly once per rank, in rank order, with
    that rank's number and data. *)
Theorem gather_delivers {T} (sync : bool) (datas : list (list T)) fill fill' s :
  0 < length datas -> rtc (sg_step sync datas) (sg_init datas fill fill') s ->
  sg_bad s = false /\
  (sg_done s -> map sg_log (sg_ranks s) = replicate (length datas) (imap (fun r d => (r, d)) datas)).
Proof. intros Hn Hs. destruct (gather_main sync datas fill fill' s Hn Hs) as (H1 & _ & H2). exact (conj H1 H2). Qed.
Print Assumptions gather_delivers.

(** No deadlock: unless all ranks have returned, some rank can go on. *)
Theorem gather_progress {T} (sync : bool) (datas : list (list T)) fill fill' s :
  0 < length datas -> rtc (sg_step sync datas) (sg_init datas fill fill') s ->
  sg_done s \/ exists s', sg_step sync datas s s'.
Proof. intros Hn Hs. exact (proj1 (proj2 (gather_main sync datas fill fill' s Hn Hs))). Qed.
Print Assumptions gather_progress.

(** No execution is longer than some bound, so every execution ends, with
    all ranks returned. *)
Theorem gather_terminates {T} (sync : bool) (datas : list (list T)) fill fill' :
  0 < length datas -> exists b, forall k s,
    nsteps (sg_step sync datas) k (sg_init datas fill fill') s -> k <= b.
Proof. exact (gather_bound sync datas fill fill'). Qed.
Print Assumptions gather_terminates.

(** Three ranks, one with no data: a complete execution exists, and what the
    callbacks have seen after it. *)
Example gather_example : exists s,
  rtc (sg_step true [[7; 8]; []; [9]]) (sg_init [[7; 8]; []; [9]] (fun _ _ => 0) (fun _ _ => 0)) s /\ sg_done s /\
  map sg_log (sg_ranks s) = [[(0, [7; 8]); (1, []); (2, [9])]; [(0, [7; 8]); (1, []); (2, [9])]; [(0, [7; 8]); (1, []); (2, [9])]].
Proof.
  destruct (gather_end true [[7; 8]; []; [9]] (fun _ _ => 0) (fun _ _ => 0) _ ltac:(cbn; lia) (rtc_refl _ _)) as (s & Hs & Hd).
  exists s. split; [exact Hs|]. split; [exact Hd|].
  exact (proj2 (gather_delivers true [[7; 8]; []; [9]] _ _ s ltac:(cbn; lia) Hs) Hd).
Qed.
