From Verif Require Import Base StdAlgo Mpi_model Ownership_proofs.

Section mpi.
  Context {V : Type}.
  Implicit Types (progs : list (list (act V))) (mem : list (list V)) (n : net V).

  Lemma perm4 {A} (a b c d : list A) : a ++ (b ++ c) ++ d ≡ₚ (c ++ a) ++ b ++ d.
  Proof.
    rewrite (Permutation_app_comm b c). rewrite <- !app_assoc. rewrite (app_assoc a c), (app_assoc c a).
    apply Permutation_app_tail, Permutation_app_comm.
  Qed.

  (** Programs whose messages pair up and whose receive regions are disjoint. *)
  Record matched progs mem : Prop := {
    m_nodup : NoDup (map rkey (recvs_of progs));
    m_keys : map skey (sends_of progs) ≡ₚ map rkey (recvs_of progs);
    m_size : forall s r, s ∈ sends_of progs -> r ∈ recvs_of progs -> skey s = rkey r ->
      length (s_data s) = r_len r;
    m_bound : forall r, r ∈ recvs_of progs -> exists m, mem !! r_dst r = Some m /\ r_off r + r_len r <= length m;
    m_disj : forall r r', r ∈ recvs_of progs -> r' ∈ recvs_of progs -> r_dst r = r_dst r' -> rkey r <> rkey r' ->
      r_off r + r_len r <= r_off r' \/ r_off r' + r_len r' <= r_off r }.

  Definition in_region (r : mrecv) (d p : nat) : Prop := r_dst r = d /\ r_off r <= p < r_off r + r_len r.

  Definition cell mem (d p : nat) : option V := mem !! d ≫= (fun m => m !! p).

  Record net_inv progs mem n (ds : list (msend V)) (dr : list mrecv) : Prop := {
    ni_err : n_err n = false;
    ni_plen : length (n_prog n) = length progs;
    ni_s : sends_of (n_prog n) ++ n_sends n ++ ds ≡ₚ sends_of progs;
    ni_r : recvs_of (n_prog n) ++ n_recvs n ++ dr ≡ₚ recvs_of progs;
    ni_d : map skey ds = map rkey dr;
    ni_len : map length (n_mem n) = map length mem;
    ni_got : forall s r k, s ∈ ds -> r ∈ dr -> skey s = rkey r -> k < r_len r ->
      cell (n_mem n) (r_dst r) (r_off r + k) = s_data s !! k;
    ni_old : forall d p, (forall r, r ∈ dr -> ~ in_region r d p) -> cell (n_mem n) d p = cell mem d p }.

  Lemma net_inv_init progs mem : net_inv progs mem (net_init progs mem) [] [].
  Proof.
    split; cbn; auto.
    - rewrite app_nil_r. reflexivity.
    - rewrite app_nil_r. reflexivity.
    - intros s r k H. apply elem_of_nil in H. contradiction.
  Qed.

  Lemma lookup_len mem mem' d m : map length mem = map length mem' -> mem !! d = Some m ->
    exists m', mem' !! d = Some m' /\ length m' = length m.
  Proof.
    intros E H. assert (H' : (length <$> mem) !! d = Some (length m)) by (rewrite list_lookup_fmap, H; reflexivity).
    change (map length mem) with (length <$> mem) in E. rewrite E in H'. change (map length mem') with (length <$> mem') in H'.
    rewrite list_lookup_fmap in H'. destruct (mem' !! d) as [m'|]; [|discriminate]. cbn in H'.
    injection H' as H'. eauto.
  Qed.

  Lemma cell_deliver (s : msend V) r mem m d p :
    mem !! r_dst r = Some m -> r_off r + length (s_data s) <= length m ->
    cell (deliver s r mem) d p =
      if decide (d = r_dst r /\ r_off r <= p < r_off r + length (s_data s))
      then s_data s !! (p - r_off r) else cell mem d p.
  Proof.
    intros Hm Hb. unfold cell, deliver.
    destruct (decide (d = r_dst r)) as [->|Hne].
    - rewrite list_lookup_alter, Hm. cbn.
      destruct (decide _) as [[_ Hp]|Hp].
      + rewrite list_lookup_inserts by lia. reflexivity.
      + assert (p < r_off r \/ r_off r + length (s_data s) <= p) as [H|H] by lia.
        * rewrite list_lookup_inserts_lt by lia. reflexivity.
        * rewrite list_lookup_inserts_ge by lia. reflexivity.
    - rewrite list_lookup_alter_ne by congruence. rewrite decide_False; [reflexivity|]. tauto.
  Qed.
  Lemma deliver_len (s : msend V) r mem : map length (deliver s r mem) = map length mem.
  Proof.
    unfold deliver. change (map length) with (fmap (M:=list) (@length V)).
    apply list_eq. intros i. rewrite !list_lookup_fmap.
    destruct (decide (i = r_dst r)) as [->|Hne].
    - rewrite list_lookup_alter. destruct (mem !! r_dst r); cbn; [|reflexivity]. rewrite inserts_length. reflexivity.
    - rewrite list_lookup_alter_ne by congruence. reflexivity.
  Qed.

  Lemma sends_insert progs r (a : act V) rest :
    progs !! r = Some (a :: rest) ->
    sends_of progs ≡ₚ option_list (mk_send r a) ++ sends_of (<[r := rest]> progs)
    /\ recvs_of progs ≡ₚ option_list (mk_recv r a) ++ recvs_of (<[r := rest]> progs).
  Proof.
    intros H. unfold sends_of, recvs_of. split.
    - destruct (concat_imap_insert (fun r p => omap (mk_send r) p) _ _ _ H) as (R & E1 & E2).
      rewrite E1, E2. cbn. destruct (mk_send r a); reflexivity.
    - destruct (concat_imap_insert (fun r p => omap (mk_recv r) p) _ _ _ H) as (R & E1 & E2).
      rewrite E1, E2. cbn. destruct (mk_recv r a); reflexivity.
  Qed.
  Lemma acts_insert progs r (a : act V) rest :
    progs !! r = Some (a :: rest) -> length (concat progs) = S (length (concat (<[r := rest]> progs))).
  Proof.
    intros H. pose proof (lookup_lt_Some _ _ _ H). rewrite <- (take_drop_middle progs r _ H) at 1.
    rewrite insert_take_drop by assumption. rewrite !concat_app, !app_length. cbn [concat].
    rewrite !app_length. cbn [length]. lia.
  Qed.

  Lemma net_step_inv progs mem n n' ds dr :
    matched progs mem -> net_inv progs mem n ds dr -> net_step n n' ->
    (exists ds' dr', net_inv progs mem n' ds' dr') /\
    (* measure: requests to post count twice *)
    2 * length (concat (n_prog n')) + length (n_sends n') + length (n_recvs n') + 1
      <= 2 * length (concat (n_prog n)) + length (n_sends n) + length (n_recvs n).
  Proof.
    intros M I Hs. destruct Hs as [n r a rest Hp | n s r s1 s2 r1 r2 Es Er Ek Fs Fr].
    - destruct (sends_insert _ _ _ _ Hp) as [Ps Pr]. split.
      + exists ds, dr. destruct I. split; cbn; auto.
        * rewrite insert_length. assumption.
        * rewrite <- ni_s0, Ps. apply perm4.
        * rewrite <- ni_r0, Pr. apply perm4.
      + cbn. rewrite (acts_insert _ _ _ _ Hp), !app_length. destruct a; cbn; lia.
    - assert (Hs : s ∈ sends_of progs).
      { rewrite <- (ni_s _ _ _ _ _ I), Es, !elem_of_app, elem_of_cons. tauto. }
      assert (Hr : r ∈ recvs_of progs).
      { rewrite <- (ni_r _ _ _ _ _ I), Er, !elem_of_app, elem_of_cons. tauto. }
      pose proof (m_size _ _ M _ _ Hs Hr Ek) as Hlen.
      destruct (m_bound _ _ M _ Hr) as (m0 & Hm0 & Hb0).
      destruct (lookup_len mem (n_mem n) _ _ (eq_sym (ni_len _ _ _ _ _ I)) Hm0) as (m & Hm & Hml).
      assert (Hfit : fits s r (n_mem n) = true).
      { unfold fits. rewrite Hm. apply andb_true_iff. rewrite !Nat.leb_le. lia. }
      rewrite Hfit. split.
      + (* the key of r is not among the delivered ones *)
        assert (Hfresh : forall r', r' ∈ dr -> rkey r' <> rkey r).
        { intros r' Hr' E. pose proof (m_nodup _ _ M) as Hnd.
          change (map rkey (recvs_of progs)) with (rkey <$> recvs_of progs) in Hnd.
          rewrite <- (ni_r _ _ _ _ _ I), Er in Hnd. rewrite !fmap_app, fmap_cons in Hnd.
          apply NoDup_app in Hnd. destruct Hnd as (_ & _ & Hnd). rewrite <- app_assoc in Hnd.
          apply NoDup_app in Hnd. destruct Hnd as (_ & _ & Hnd). cbn in Hnd. apply NoDup_cons in Hnd.
          destruct Hnd as [Hnd _]. apply Hnd. apply elem_of_app. right. rewrite <- E.
          apply elem_of_list_fmap. eauto. }
        assert (Hdr : forall r', r' ∈ dr -> r' ∈ recvs_of progs).
        { intros r' H'. rewrite <- (ni_r _ _ _ _ _ I), !elem_of_app. tauto. }
        exists (s :: ds), (r :: dr). split; cbn.
        * rewrite (ni_err _ _ _ _ _ I). reflexivity.
        * apply I.
        * rewrite <- (ni_s _ _ _ _ _ I), Es. apply Permutation_app_head. rewrite <- !app_assoc.
          apply Permutation_app_head. cbn. symmetry. apply Permutation_middle.
        * rewrite <- (ni_r _ _ _ _ _ I), Er. apply Permutation_app_head. rewrite <- !app_assoc.
          apply Permutation_app_head. cbn. symmetry. apply Permutation_middle.
        * rewrite (ni_d _ _ _ _ _ I), Ek. reflexivity.
        * rewrite deliver_len. apply I.
        * intros s' r' k Hs' Hr' E Hk.
          rewrite (cell_deliver _ _ _ _ _ _ Hm) by lia. rewrite Hlen.
          apply elem_of_cons in Hs', Hr'. destruct Hr' as [->|Hr'].
          -- destruct Hs' as [->|Hs'].
             ++ rewrite decide_True by lia. f_equal. lia.
             ++ exfalso. assert (In (skey s') (map skey ds)) as Hin by (apply in_map, elem_of_list_In, Hs').
                rewrite (ni_d _ _ _ _ _ I) in Hin. apply in_map_iff in Hin. destruct Hin as (r'' & E'' & Hr'').
                apply elem_of_list_In in Hr''. apply (Hfresh _ Hr''). congruence.
          -- assert (Hs'' : s' ∈ ds).
             { destruct Hs' as [->|Hs']; [|exact Hs']. exfalso. apply (Hfresh _ Hr'). congruence. }
             rewrite decide_False.
             ++ apply (ni_got _ _ _ _ _ I); auto.
             ++ intros [Hd Hp]. destruct (m_disj _ _ M r r' Hr (Hdr _ Hr') (eq_sym Hd) (fun H => Hfresh _ Hr' (eq_sym H))); lia.
        * intros d p Hnot. rewrite (cell_deliver _ _ _ _ _ _ Hm) by lia. rewrite decide_False.
          -- apply (ni_old _ _ _ _ _ I). intros r' Hr'. apply Hnot. right. exact Hr'.
          -- intros [-> Hp]. apply (Hnot r); [left|]. split; [reflexivity|]. lia.
      + cbn. rewrite Es, Er, !app_length. cbn [length]. lia.
  Qed.

  Lemma net_steps_inv progs mem k n n' ds dr :
    matched progs mem -> net_inv progs mem n ds dr -> nsteps net_step k n n' ->
    (exists ds' dr', net_inv progs mem n' ds' dr') /\
    k + 2 * length (concat (n_prog n')) + length (n_sends n') + length (n_recvs n')
      <= 2 * length (concat (n_prog n)) + length (n_sends n) + length (n_recvs n).
  Proof.
    intros M I Hs. revert ds dr I. induction Hs as [|k n n1 n2 H1 H2 IH]; intros ds dr I.
    - split; [eauto|lia].
    - destruct (net_step_inv _ _ _ _ _ _ M I H1) as [(ds1 & dr1 & I1) Hm].
      destruct (IH _ _ I1) as [HI Hm2]. split; [exact HI|lia].
  Qed.

  Lemma first_key {A K} `{EqDecision K} (key : A -> K) (l : list A) k :
    k ∈ map key l -> exists l1 a l2, l = l1 ++ a :: l2 /\ key a = k /\ Forall (fun b => key b <> k) l1.
  Proof.
    induction l as [|a l IH]; intros H; [apply elem_of_nil in H; contradiction|].
    destruct (decide (key a = k)) as [E|E].
    - exists [], a, l. auto.
    - cbn in H. apply elem_of_cons in H. destruct H as [H|H]; [congruence|].
      destruct (IH H) as (l1 & b & l2 & -> & Hb & Hf). exists (a :: l1), b, l2. auto.
  Qed.
  Lemma all_empty_nil (progs : list (list (act V))) :
    Forall (fun p => p = []) progs -> sends_of progs = [] /\ recvs_of progs = [].
  Proof.
    intros H. unfold sends_of, recvs_of. split.
    - match goal with |- ?l = [] => destruct l as [|y l'] eqn:E; [reflexivity|] end. exfalso.
      assert (Hy : y ∈ concat (imap (fun r (p : list (act V)) => omap (mk_send r) p) progs)) by (rewrite E; left).
      apply elem_of_concat_imap in Hy. destruct Hy as (r & p & Hp & Hy).
      rewrite Forall_lookup in H. rewrite (H _ _ Hp) in Hy. apply elem_of_nil in Hy. contradiction.
    - match goal with |- ?l = [] => destruct l as [|y l'] eqn:E; [reflexivity|] end. exfalso.
      assert (Hy : y ∈ concat (imap (fun r (p : list (act V)) => omap (mk_recv r) p) progs)) by (rewrite E; left).
      apply elem_of_concat_imap in Hy. destruct Hy as (r & p & Hp & Hy).
      rewrite Forall_lookup in H. rewrite (H _ _ Hp) in Hy. apply elem_of_nil in Hy. contradiction.
  Qed.

  Lemma net_progress progs mem n ds dr :
    matched progs mem -> net_inv progs mem n ds dr -> (exists n', net_step n n') \/ net_done n.
  Proof.
    intros M I.
    destruct (decide (Exists (fun p => p <> []) (n_prog n))) as [H|H].
    { left. apply Exists_exists in H. destruct H as (p & Hp & Hne). apply elem_of_list_lookup_1 in Hp.
      destruct Hp as [r Hp]. destruct p as [|a rest]; [contradiction|]. eexists. eapply net_post. exact Hp. }
    assert (Hempty : Forall (fun p => p = []) (n_prog n)).
    { apply Forall_forall. intros p Hp. destruct p as [|a p]; [reflexivity|]. exfalso. apply H.
      apply Exists_exists. eexists. split; [exact Hp|discriminate]. }
    destruct (all_empty_nil _ Hempty) as [E1 E2].
    pose proof (ni_s _ _ _ _ _ I) as Ps. pose proof (ni_r _ _ _ _ _ I) as Pr.
    rewrite E1 in Ps. rewrite E2 in Pr. cbn [app] in Ps, Pr.
    destruct (n_recvs n) as [|r rs] eqn:Er.
    - right. split; [exact Hempty|]. split; [|exact Er].
      assert (Hlen : length (sends_of progs) = length (recvs_of progs)).
      { rewrite <- (map_length skey), <- (map_length rkey (recvs_of progs)). apply Permutation_length, M. }
      rewrite <- Ps, <- Pr in Hlen. rewrite app_length in Hlen. cbn [app] in Hlen.
      assert (length ds = length dr).
      { rewrite <- (map_length skey ds), <- (map_length rkey dr), (ni_d _ _ _ _ _ I). reflexivity. }
      destruct (n_sends n); [reflexivity|]. cbn [length] in Hlen. lia.
    - left. assert (Hk : rkey r ∈ map skey (sends_of progs)).
      { rewrite (m_keys _ _ M). change (map rkey (recvs_of progs)) with (rkey <$> recvs_of progs).
        rewrite <- Pr. rewrite fmap_app. cbn. left. }
      change (map skey (sends_of progs)) with (skey <$> sends_of progs) in Hk.
      rewrite <- Ps, fmap_app, elem_of_app in Hk. destruct Hk as [Hk|Hk].
      + apply first_key in Hk. destruct Hk as (s1 & s & s2 & Es & Ek & Fs).
        eexists. eapply (net_deliver n s r s1 s2 [] rs); [exact Es|exact Er|exact Ek| |constructor].
        eapply Forall_impl; [exact Fs|]. cbn. intros ? ?. congruence.
      + exfalso. change (skey <$> ds) with (map skey ds) in Hk. rewrite (ni_d _ _ _ _ _ I) in Hk.
        pose proof (m_nodup _ _ M) as Hnd. change (map rkey (recvs_of progs)) with (rkey <$> recvs_of progs) in Hnd.
        rewrite <- Pr in Hnd. rewrite fmap_app in Hnd. cbn in Hnd. apply NoDup_cons in Hnd.
        destruct Hnd as [Hnd _]. apply Hnd. apply elem_of_app. right. exact Hk.
  Qed.

  (** Transport theorem: all executions are bounded, never fail or block, and
      end with every message in its place and nothing else changed. *)
  Lemma transport progs mem :
    matched progs mem ->
    exists N, forall k n, nsteps net_step k (net_init progs mem) n ->
      k <= N /\ n_err n = false /\
      ((exists n', net_step n n') \/
       (net_done n /\ map length (n_mem n) = map length mem
        /\ (forall s r i, s ∈ sends_of progs -> r ∈ recvs_of progs -> skey s = rkey r -> i < r_len r ->
              cell (n_mem n) (r_dst r) (r_off r + i) = s_data s !! i)
        /\ (forall d p, (forall r, r ∈ recvs_of progs -> ~ in_region r d p) ->
              cell (n_mem n) d p = cell mem d p))).
  Proof.
    intros M. exists (2 * length (concat progs)). intros k n Hs.
    destruct (net_steps_inv _ _ _ _ _ _ _ M (net_inv_init progs mem) Hs) as [(ds & dr & I) Hm].
    cbn [n_prog n_sends n_recvs net_init length] in Hm.
    split; [lia|]. split; [apply I|].
    destruct (net_progress _ _ _ _ _ M I) as [H|Hd]; [left; exact H|right].
    split; [exact Hd|]. split; [apply I|].
    destruct Hd as (He & Hs0 & Hr0). destruct (all_empty_nil _ He) as [E1 E2].
    pose proof (ni_s _ _ _ _ _ I) as Ps. pose proof (ni_r _ _ _ _ _ I) as Pr.
    rewrite E1, Hs0 in Ps. rewrite E2, Hr0 in Pr. cbn [app] in Ps, Pr. split.
    - intros s r i Hs' Hr'. rewrite <- Ps in Hs'. rewrite <- Pr in Hr'. intros. eapply (ni_got _ _ _ _ _ I); eauto.
    - intros d p Hn. apply (ni_old _ _ _ _ _ I). intros r Hr'. apply Hn. rewrite <- Pr. exact Hr'.
  Qed.
End mpi.
