(** Filling the buffers; the values at one quadrature point. *)
From Coq Require Import Reals Lra.
From Verif Require Import Base Elem_model Elem_spec Elem_proofs Poly_model Poly_spec Poly_proofs Poly2_proofs Basis_model Basis_spec Basis_proofs Basis2_proofs Gauss_model Gauss_spec Gauss_proofs Gauss2_proofs Geom_model Geom_proofs LocalSys_model SumFact_model SumFact_proofs SumFact2_proofs SumFact4_proofs.
Local Open Scope R_scope.

Lemma combine_wr out i v : combine false out i v = wr out i v.
Proof.
  unfold combine. destruct (decide (i < length out)%nat) as [H|H]; [by rewrite rd_nth0, bind_ok|]. assert (E : out !! i = None) by (apply lookup_ge_None_2; lia). unfold rd. rewrite E. cbn. unfold wr. case_decide; [lia|done].
Qed.
Lemma writes_wr len old new i v : (i < len)%nat -> new i = v -> writes len old new (fun out => wr out i v) (fun j => j = i).
Proof. intros Hi Hv. eapply writes_eq; [intros out; apply combine_wr|]. by apply writes_combine. Qed.
Lemma writes_run (l : list R) new f C : writes (length l) (at' l) new f C -> exists l', f l = Ok l' /\ length l' = length l /\ (forall i, C i -> (i < length l)%nat -> nth i l' 0 = new i) /\ (forall i, ~ C i -> (i < length l)%nat -> nth i l' 0 = nth i l 0).
Proof.
  intros H. destruct (H (fun _ => False) l) as (l' & E & L & H1 & H2); [tauto|split; [done|]; split; [done|done]|]. exists l'. split; [done|]. split; [done|]. split; intros i Hi Hl; [apply H1; tauto|apply H2; tauto].
Qed.
Lemma enum_in {A} (l : list A) i x : (i, x) ∈ zip (seq 0 (length l)) l <-> l !! i = Some x.
Proof.
  rewrite elem_of_list_lookup. split.
  - intros (k & Hk). apply lookup_zip_with_Some in Hk. destruct Hk as (a & b & E & Ha & Hb). injection E as -> ->. apply lookup_seq in Ha. destruct Ha as [-> _]. done.
  - intros H. exists i. apply lookup_zip_with_Some. exists i, x. split; [done|]. split; [|done]. apply lookup_seq. split; [done|]. by apply lookup_lt_Some in H.
Qed.
Lemma enum_nodup {A} (l : list A) : NoDup (zip (seq 0 (length l)) l).
Proof. apply (NoDup_fmap_1 fst). rewrite fst_zip by (rewrite seq_length; lia). apply NoDup_seq. Qed.
Lemma field_fill_ok fields stride data nodes nops nvals (buf : list R) : node_vals fields stride data nodes = Ok nvals -> (length nodes * (nops + length fields) <= length buf)%nat ->
  exists buf', field_fill fields stride data nodes nops buf = Ok buf' /\ length buf' = length buf /\
    (forall J i, (J < length nodes)%nat -> (i < length fields)%nat -> nth (J + length nodes * (nops + i)) buf' 0 = ent nvals J i) /\
    (forall J f, (J < length nodes)%nat -> (f < nops)%nat -> nth (J + length nodes * f) buf' 0 = nth (J + length nodes * f) buf 0).
Proof.
  intros Hv Hl. set (nn := length nodes) in *. set (nf := length fields) in *.
  assert (Hat : forall J i node f, nodes !! J = Some node -> fields !! i = Some f -> rd data (node + f * stride) = Ok (ent nvals J i)).
  { intros J i node f HJ Hi. unfold node_vals in Hv. destruct (Forall2_lookup_l _ _ _ _ _ (map_res_inv _ _ _ Hv) HJ) as (row & Hrow & Er). destruct (Forall2_lookup_l _ _ _ _ _ (map_res_inv _ _ _ Er) Hi) as (v & Hvv & Ev).
    rewrite Ev. f_equal. unfold ent. rewrite (nth_lookup_Some _ _ [] _ Hrow). symmetry. by apply nth_lookup_Some. }
  destruct (writes_run buf (fun j => ent nvals (j mod nn) (j / nn - nops)) (field_fill fields stride data nodes nops)
    (fun j => exists rn, rn ∈ zip (seq 0 nn) nodes /\ exists cf, cf ∈ zip (seq 0 nf) fields /\ j = (rn.1 + nn * (nops + cf.1))%nat)) as (buf' & E & L & H1 & H2).
  { unfold field_fill. fold nn nf. apply writes_for; [apply enum_nodup| |].
    - intros [J node] HJ. apply enum_in in HJ. cbn [fst snd]. apply writes_for; [apply enum_nodup| |].
      + intros [i f] Hi. apply enum_in in Hi. cbn [fst snd]. apply (writes_eq _ _ _ (fun out => wr out (J + nn * (nops + i)) (ent nvals J i))); [intros out; by rewrite (Hat J i node f HJ Hi), bind_ok|]. apply lookup_lt_Some in HJ, Hi. fold nn in HJ. fold nf in Hi.
        apply writes_wr; [nia|]. cbv beta. rewrite Nat.mul_comm, Nat.mod_add, Nat.mod_small, Nat.div_add, Nat.div_small by lia. f_equal. lia.
      + intros [i f] [i' f'] j Hi Hi' -> E. cbn [fst] in E. apply enum_in in Hi, Hi'. apply lookup_lt_Some in HJ. assert (i = i') by (fold nn in HJ; nia). subst. rewrite Hi in Hi'. by injection Hi' as ->.
    - intros [J node] [J' node'] j HJ HJ' ([i f] & _ & ->) ([i' f'] & _ & E). cbn [fst] in E. apply enum_in in HJ, HJ'. pose proof (lookup_lt_Some _ _ _ HJ) as Hlt. pose proof (lookup_lt_Some _ _ _ HJ') as Hlt'. fold nn in Hlt, Hlt'. destruct (cell_inj nn _ _ _ _ Hlt Hlt' E) as [-> _]. rewrite HJ in HJ'. by injection HJ' as ->. }
  exists buf'. split; [done|]. split; [done|]. split.
  - intros J i HJ Hi. rewrite H1; [|destruct (lookup_lt_is_Some_2 nodes J HJ) as [node Hn]; destruct (lookup_lt_is_Some_2 fields i Hi) as [f Hf]; exists (J, node); split; [by apply enum_in|]; exists (i, f); split; [by apply enum_in|done]|nia].
    rewrite Nat.mul_comm, Nat.mod_add, Nat.mod_small, Nat.div_add, Nat.div_small by lia. f_equal. lia.
  - intros J f HJ Hf. apply H2; [|nia]. intros ([J' node] & HJ' & [i f'] & Hi & Ec). cbn [fst] in Ec. apply enum_in in HJ'. apply lookup_lt_Some in HJ'. fold nn in HJ'. destruct (cell_inj nn _ _ _ _ HJ HJ' Ec). lia.
Qed.
Lemma fill_coords_ok dim (V : list (list R)) (buf : list R) : Forall (fun v => length v = 3%nat) V -> (dim <= 3)%nat -> (length V * dim <= length buf)%nat ->
  exists buf', fill_coords dim V buf = Ok buf' /\ length buf' = length buf /\ forall d i, (d < dim)%nat -> (i < length V)%nat -> nth (i + length V * d) buf' 0 = nth d (nth i V []) 0.
Proof.
  intros H3 Hd Hl. set (nv := length V) in *.
  destruct (writes_run buf (fun j => nth (j / nv) (nth (j mod nv) V []) 0) (fill_coords dim V) (fun j => exists iv, iv ∈ zip (seq 0 nv) V /\ exists d, d ∈ seq 0 dim /\ j = (iv.1 + nv * d)%nat)) as (buf' & E & L & H1 & _).
  { unfold fill_coords. fold nv. apply writes_for; [apply enum_nodup| |].
    - intros [i v] Hi. apply enum_in in Hi. cbn [fst snd]. pose proof (lookup_lt_Some _ _ _ Hi) as Hlt. fold nv in Hlt. apply writes_for; [apply NoDup_seq| |].
      + intros d Hdd. apply elem_of_seq in Hdd. pose proof (Forall_lookup_1 _ _ _ _ H3 Hi) as Hv. cbv beta in Hv. apply (writes_eq _ _ _ (fun out => wr out (i + nv * d) (nth d v 0))); [intros out; rewrite rd_nth0, bind_ok by lia; done|]. apply writes_wr; [nia|]. cbv beta.
        rewrite Nat.mul_comm, Nat.mod_add, Nat.mod_small, Nat.div_add, Nat.div_small by lia. by rewrite (nth_lookup_Some _ _ [] _ Hi).
      + intros d d' j _ _ -> E. nia.
    - intros [i v] [i' v'] j Hi Hi' (d & _ & ->) (d' & _ & E). cbn [fst] in E. apply enum_in in Hi, Hi'. pose proof (lookup_lt_Some _ _ _ Hi) as Hlt. pose proof (lookup_lt_Some _ _ _ Hi') as Hlt'. fold nv in Hlt, Hlt'. destruct (cell_inj nv _ _ _ _ Hlt Hlt' E) as [-> _]. rewrite Hi in Hi'. by injection Hi' as ->. }
  exists buf'. split; [done|]. split; [done|]. intros d i Hdd Hi. rewrite H1; [|destruct (lookup_lt_is_Some_2 V i Hi) as [v Hv]; exists (i, v); split; [by apply enum_in|]; exists d; split; [by apply elem_of_seq; lia|done]|nia].
  rewrite Nat.mul_comm, Nat.mod_add, Nat.mod_small, Nat.div_add, Nat.div_small by lia. done.
Qed.

(** ** Transposed matrices *)
Lemma mk_ext n m f g : (forall i j, (i < n)%nat -> (j < m)%nat -> f i j = g i j) -> mk n m f = mk n m g.
Proof. intros H. unfold mk. apply map_ext_in. intros i Hi. apply in_seq in Hi. apply map_ext_in. intros j Hj. apply in_seq in Hj. apply H; lia. Qed.
Lemma det_transposed n J : (1 <= n <= 3)%nat -> determinant n (mk n n (fun i k => ent J k i)) = determinant n J.
Proof. intros Hn. assert (n = 1 \/ n = 2 \/ n = 3)%nat as [-> |[-> | ->]] by lia; unfold determinant; rewrite !ent_mk by lia; ring. Qed.
Lemma inv_transposed n J i k : (1 <= n <= 3)%nat -> (i < n)%nat -> (k < n)%nat -> ent (inverse n (mk n n (fun i k => ent J k i))) k i = ent (inverse n J) i k.
Proof.
  intros Hn Hi Hk. unfold inverse. rewrite (ent_mk n n (fun i j => ent (adjugate n J) i j / determinant n J)) by done. rewrite (ent_mk n n (fun i0 j => ent (adjugate n (mk n n (fun i k => ent J k i))) i0 j / determinant n (mk n n (fun i k => ent J k i)))) by done.
  rewrite det_transposed by done. f_equal. assert (n = 1 \/ n = 2 \/ n = 3)%nat as [-> |[-> | ->]] by lia.
  - assert (i = 0)%nat as -> by lia. assert (k = 0)%nat as -> by lia. done.
  - assert (i = 0 \/ i = 1)%nat as [-> | ->] by lia; assert (k = 0 \/ k = 1)%nat as [-> | ->] by lia; unfold adjugate; rewrite !(ent_mk 2 2) by lia; reflexivity.
  - assert (i = 0 \/ i = 1 \/ i = 2)%nat as [-> |[-> | ->]] by lia; assert (k = 0 \/ k = 1 \/ k = 2)%nat as [-> |[-> | ->]] by lia; unfold adjugate, minor; rewrite !(ent_mk 3 3) by lia; cbn [ent nth]; unfold ent at 1; cbn [nth]; symmetry; unfold ent at 1; cbn [nth]; ring.
Qed.

(** ** One point *)
Lemma for_bufs {B} (g : nat -> B -> res B) (Pre Post : nat -> B -> Prop) m (out : list B) : (m <= length out)%nat -> (forall k b, (k < m)%nat -> out !! k = Some b -> exists b', g k b = Ok b' /\ Post k b') ->
  exists out', for_each (fun k out => b ← rd out k; b ← g k b; wr out k b) (seq 0 m) out = Ok out' /\ length out' = length out /\ forall k, (k < m)%nat -> exists b, out' !! k = Some b /\ Post k b.
Proof.
  intros Hl Hg. assert (H : exists out', for_each (fun k out => b ← rd out k; b ← g k b; wr out k b) (seq 0 m) out = Ok out' /\ length out' = length out /\ (forall k, (k < m)%nat -> exists b, out' !! k = Some b /\ Post k b) /\ forall k, (m <= k)%nat -> out' !! k = out !! k).
  { induction m as [|m IH]; [exists out; split; [done|]; split; [done|]; split; [intros; lia|done]|]. destruct IH as (o & E & L & H1 & H2); [lia|intros k b Hk; apply Hg; lia|]. rewrite seq_S, for_each_app, E, bind_ok. cbn [for_each Nat.add].
    destruct (lookup_lt_is_Some_2 out m) as [b Hb]; [lia|]. assert (Ho : o !! m = Some b) by (rewrite H2 by lia; done). destruct (Hg m b ltac:(lia) Hb) as (b' & Eb & Pb). rewrite (rd_ok _ _ _ Ho), bind_ok, Eb, bind_ok, wr_ok by lia. rewrite bind_ok.
    eexists. split; [done|]. split; [by rewrite insert_length|]. split.
    - intros k Hk. destruct (decide (k = m)) as [-> |Hne]; [exists b'; split; [apply list_lookup_insert; lia|done]|]. rewrite list_lookup_insert_ne by done. apply H1. lia.
    - intros k Hk. rewrite list_lookup_insert_ne by lia. apply H2. lia. }
  destruct H as (o & ? & ? & ? & _). by exists o.
Qed.
Lemma cell_digits (v nu a u r : nat) : (a < v)%nat -> (u < nu)%nat -> ((a + v * (u + nu * r)) / v = u + nu * r /\ (u + nu * r) mod nu = u /\ (u + nu * r) / nu = r)%nat.
Proof.
  intros Ha Hu. rewrite (Nat.mul_comm v), Nat.div_add, (Nat.div_small a) by lia. rewrite (Nat.mul_comm nu r), Nat.mod_add, Nat.mod_small, Nat.div_add, Nat.div_small by lia. lia.
Qed.
Section point.
  Context (t : etype) (Ht : t <> Line) (nq nu us nr nf : nat) (kernel : list R -> list (list R) -> list R -> R -> list mat * mat) (time : R) (weights : list R) (w : nat -> R) (bk geom : list (list R)).
  Notation dim := (native_dim t). Notation nops := (nu * nr)%nat. Notation F := (nops + nf)%nat.
  Context (Sv Gv : nat -> nat -> list nat -> R).
  Context (Hw : forall i, (i < nq)%nat -> rd weights i = Ok (w i)).
  Context (Hbk : forall k, (k <= dim)%nat -> exists o, bk !! k = Some o /\ (F * vol t nq <= length o)%nat /\ forall f q, (f < F)%nat -> idx t nq q -> nth (f + F * lin nq q) o 0 = Sv k f q).
  Context (Hge : forall k, (k <= dim)%nat -> exists o, geom !! k = Some o /\ (dim * vol t nq <= length o)%nat /\ forall d q, (d < dim)%nat -> idx t nq q -> nth (d + dim * lin nq q) o 0 = Gv k d q).
  Definition Jq (q : list nat) : list (list R) := mk dim dim (fun i k => Gv (S k) i q).
  Definition fvq (q : list nat) : list R := map (fun i => Sv 0 (nops + i) q) (seq 0 nf).
  Definition fdq (q : list nat) : list (list R) := mk dim nf (fun d i => rsum dim (fun k => ent (inverse dim (Jq q)) k d * Sv (S k) (nops + i) q)).
  Definition opsq (q : list nat) : list mat := (kernel (fvq q) (fdq q) [Gv 0 0 q; Gv 0 1 q; 0] time).1.
  Definition Opq (q : list nat) (k e u : nat) : R :=
    match k with O => nth 0 (opsq q) (fun _ _ => 0) e u | S k => rsum dim (fun i => nth (S i) (opsq q) (fun _ _ => 0) e u * ent (inverse dim (Jq q)) k i) end.
  Definition wq (q : list nat) : R := foldr Rmult (determinant dim (Jq q)) (map w q).
  Definition Tq (q : list nat) (e r : nat) : R := wq q * rsum (dim + 1) (fun k => rsum nu (fun u => Opq q k e u * Sv k (u + nu * r) q)).
  Definition Rq (q : list nat) (k u r : nat) : R := rsum us (fun e => Opq q k e u * Tq q e r).
  Context (Hops : forall q, length (opsq q) = (dim + 1)%nat).
  Definition good (size : nat) (D : list nat -> Prop) (out : list (list R)) : Prop :=
    length out = (dim + 1)%nat /\ forall k, (k <= dim)%nat -> exists b, out !! k = Some b /\ length b = size /\
      forall q u r, D q -> idx t nq q -> (u < nu)%nat -> (r < nr)%nat -> nth (lin nq q + vol t nq * (u + nu * r)) b 0 = Rq q k u r.
  Lemma dim23 : (2 <= dim <= 3)%nat. Proof using Ht. clear -Ht. destruct t; cbn; (lia || done). Qed.
  Lemma op_index u r : (u < nu)%nat -> (r < nr)%nat -> (u + nu * r < nops)%nat. Proof using. clear. intros; nia. Qed.
  Lemma bk_rd k o q f : (k <= dim)%nat -> idx t nq q -> (f < F)%nat -> bk !! k = Some o -> rd o (lin nq q * F + f) = Ok (Sv k f q).
  Proof using Hbk.
    clear Hge Hw Hops. intros Hk Hq Hf Ho. destruct (Hbk k Hk) as (o' & Ho' & Hl & H). rewrite Ho in Ho'. injection Ho' as <-. pose proof (lin_lt t nq q Hq) as Hlt. rewrite rd_nth0 by nia. rewrite Nat.add_comm, (Nat.mul_comm _ F). by rewrite H.
  Qed.
  Lemma geom_rd k o q d : (k <= dim)%nat -> idx t nq q -> (d < dim)%nat -> geom !! k = Some o -> rd o (lin nq q * dim + d) = Ok (Gv k d q).
  Proof using Hge.
    clear Hbk Hw Hops. intros Hk Hq Hf Ho. destruct (Hge k Hk) as (o' & Ho' & Hl & H). rewrite Ho in Ho'. injection Ho' as <-. pose proof (lin_lt t nq q Hq) as Hlt. rewrite rd_nth0 by nia. rewrite Nat.add_comm, (Nat.mul_comm _ dim). by rewrite H.
  Qed.
  Lemma bk_at k : (k <= dim)%nat -> bk !! k = Some (nth k bk []). Proof using Hbk. intros Hk. destruct (Hbk k Hk) as (o & Ho & _). by rewrite (nth_lookup_Some _ _ [] _ Ho). Qed.
  Lemma geom_at k : (k <= dim)%nat -> geom !! k = Some (nth k geom []). Proof using Hge. intros Hk. destruct (Hge k Hk) as (o & Ho & _). by rewrite (nth_lookup_Some _ _ [] _ Ho). Qed.
  Lemma bind_Ok_id {A} (r : res A) : (x ← r; Ok x) = r. Proof. by destruct r. Qed.
  Lemma evalAtQP_ok size q (D : list nat -> Prop) out : (vol t nq * nops <= size)%nat -> idx t nq q -> good size D out ->
    exists out', evalAtQP dim nq nu us nr nf kernel time weights bk geom q out = Ok out' /\ good size (fun q' => D q' \/ q' = q) out'.
  Proof using Ht Hw Hbk Hge Hops.
    intros Hsize Hq [Hlen Hout]. pose proof dim23 as Hd. unfold evalAtQP. cbv zeta.
    assert (EJ : map_res (fun i => map_res (fun k => b ← rd geom (S k); (x ← rd b (lin nq q * dim + i); Ok x)) (seq 0 dim)) (seq 0 dim) = Ok (Jq q)).
    { unfold Jq, mk. apply map_res_map. intros i Hi. apply elem_of_seq in Hi. apply map_res_map. intros k Hk. apply elem_of_seq in Hk. rewrite (rd_ok _ _ _ (geom_at (S k) ltac:(lia))), bind_ok, bind_Ok_id. apply geom_rd; (done || lia || (apply geom_at; lia)). }
    rewrite EJ, bind_ok. rewrite (rd_ok _ _ _ (bk_at 0%nat ltac:(lia))), bind_ok.
    rewrite (map_res_map (fun k => rd bk (S k)) (fun k => nth (S k) bk []) (seq 0 dim)) by (intros k Hk; apply elem_of_seq in Hk; apply rd_ok, bk_at; lia). rewrite bind_ok.
    rewrite (rd_ok _ _ _ (geom_at 0%nat ltac:(lia))), bind_ok.
    rewrite (map_res_map (fun i => x ← rd (nth 0 bk []) (lin nq q * F + (nops + i)); Ok x) (fun i => Sv 0 (nops + i) q) (seq 0 nf)) by (intros i Hi; apply elem_of_seq in Hi; rewrite bind_Ok_id; apply bk_rd; (done || lia || (apply bk_at; lia))). rewrite bind_ok. fold (fvq q).
    assert (Efd : map_res (fun d => map_res (fun i => l ← map_res (fun b => x ← rd b (lin nq q * F + (nops + i)); Ok x) (map (fun k => nth (S k) bk []) (seq 0 dim)); Ok (dot dim (fun k => ent (inverse dim (Jq q)) k d) (fun k => nth k l 0))) (seq 0 nf)) (seq 0 dim) = Ok (fdq q)).
    { unfold fdq, mk. apply map_res_map. intros d Hdd. apply map_res_map. intros i Hi. apply elem_of_seq in Hi. rewrite (map_res_map _ (fun b => nth (lin nq q * F + (nops + i)) b 0)).
      - rewrite bind_ok. f_equal. rewrite dot_rsum. apply rsum_ext. intros k Hk. f_equal. rewrite map_map. rewrite (nth_lookup_Some (map _ _) k 0 (nth (lin nq q * F + (nops + i)) (nth (S k) bk []) 0)) by (rewrite (list_lookup_fmap (fun x => nth (lin nq q * F + (nops + i)) (nth (S x) bk []) 0)), lookup_seq_lt by done; done).
        assert (E : rd (nth (S k) bk []) (lin nq q * F + (nops + i)) = Ok (Sv (S k) (nops + i) q)) by (apply bk_rd; (done || lia || (apply bk_at; lia))). apply rd_inv in E. by apply nth_lookup_Some.
      - intros b Hb. apply elem_of_list_In, in_map_iff in Hb. destruct Hb as (k & <- & Hk). apply in_seq in Hk. rewrite bind_Ok_id. assert (E : rd (nth (S k) bk []) (lin nq q * F + (nops + i)) = Ok (Sv (S k) (nops + i) q)) by (apply bk_rd; (done || lia || (apply bk_at; lia))).
        rewrite E. apply rd_inv in E. f_equal. symmetry. by apply nth_lookup_Some. }
    rewrite Efd, bind_ok. assert (Ep : forall d, (d < dim)%nat -> (x ← rd (nth 0 geom []) (lin nq q * dim + d); Ok x) = Ok (Gv 0 d q)) by (intros d Hdd; rewrite bind_Ok_id; apply geom_rd; (done || lia || (apply geom_at; lia))).
    rewrite !Ep by lia. rewrite !bind_ok. fold (opsq q). assert (Eop : forall k, (k <= dim)%nat -> rd (opsq q) k = Ok (nth k (opsq q) (fun _ _ => 0))).
    { intros k Hk. destruct (lookup_lt_is_Some_2 (opsq q) k) as [A HA]; [rewrite Hops; lia|]. rewrite (nth_lookup_Some _ _ _ _ HA). by apply rd_ok. }
    rewrite Eop by lia. rewrite bind_ok. rewrite (map_res_map (fun i => rd (opsq q) (S i)) (fun i => nth (S i) (opsq q) (fun _ _ => 0)) (seq 0 dim)) by (intros i Hi; apply elem_of_seq in Hi; apply Eop; lia). rewrite bind_ok.
    rewrite (map_res_map (fun j => x ← rd (nth 0 bk []) (lin nq q * F + j); Ok x) (fun j => Sv 0 j q) (seq 0 nops)) by (intros j Hj; apply elem_of_seq in Hj; rewrite bind_Ok_id; apply bk_rd; (done || lia || (apply bk_at; lia))). rewrite bind_ok.
    assert (Ets : map_res (fun b => map_res (fun j => x ← rd b (lin nq q * F + j); Ok x) (seq 0 nops)) (map (fun k => nth (S k) bk []) (seq 0 dim)) = Ok (map (fun k => map (fun j => Sv (S k) j q) (seq 0 nops)) (seq 0 dim))).
    { assert (Hg : forall l, (forall k, k ∈ l -> (k < dim)%nat) -> map_res (fun b => map_res (fun j => x ← rd b (lin nq q * F + j); Ok x) (seq 0 nops)) (map (fun k => nth (S k) bk []) l) = Ok (map (fun k => map (fun j => Sv (S k) j q) (seq 0 nops)) l)); [|apply Hg; intros k Hk; apply elem_of_seq in Hk; lia].
      induction l as [|k l IH]; intros Hl; [done|]. cbn [map map_res]. rewrite (map_res_map _ (fun j => Sv (S k) j q)).
      - rewrite bind_ok, IH by (intros; apply Hl; by right). by rewrite bind_ok.
      - intros j Hj. apply elem_of_seq in Hj. assert (k < dim)%nat by (apply Hl; left). rewrite bind_Ok_id. apply bk_rd; (done || lia || (apply bk_at; lia)). }
    rewrite Ets, bind_ok. rewrite (map_res_map (rd weights) w q) by (intros i Hi; apply Hw; destruct Hq as [_ Hf]; rewrite Forall_forall in Hf; by apply Hf). rewrite bind_ok. fold (wq q).
    assert (HOp : forall k e u, (k <= dim)%nat -> match k with O => nth 0 (opsq q) (fun _ _ => 0) e u | S k => dot dim (fun i => nth i (map (fun i => nth (S i) (opsq q) (fun _ _ => 0)) (seq 0 dim)) (fun _ _ => 0) e u) (fun i => ent (inverse dim (Jq q)) k i) end = Opq q k e u).
    { intros [|k] e u Hk; [done|]. cbn [Opq]. rewrite dot_rsum. apply rsum_ext. intros i Hi. f_equal. rewrite (nth_lookup_Some (map _ _) i (fun _ _ => 0) (nth (S i) (opsq q) (fun _ _ => 0))); [done|]. by rewrite (list_lookup_fmap (fun i => nth (S i) (opsq q) (fun _ _ => 0))), lookup_seq_lt by done. }
    assert (HT : forall e r, (r < nr)%nat -> wq q * (dot nu (fun u => nth 0 (opsq q) (fun _ _ => 0) e u) (fun u => nth (u + nu * r) (map (fun j => Sv 0 j q) (seq 0 nops)) 0) +
        dot dim (fun _ => 1) (fun k => dot nu (fun u => dot dim (fun i => nth i (map (fun i => nth (S i) (opsq q) (fun _ _ => 0)) (seq 0 dim)) (fun _ _ => 0) e u) (fun i => ent (inverse dim (Jq q)) k i)) (fun u => nth (u + nu * r) (nth k (map (fun k => map (fun j => Sv (S k) j q) (seq 0 nops)) (seq 0 dim)) []) 0))) = Tq q e r).
    { intros e r Hr. unfold Tq. f_equal. rewrite Nat.add_1_r, rsum_S. rewrite dot_rsum. f_equal.
      - apply rsum_ext. intros u Hu. cbn [Opq]. f_equal. pose proof (op_index u r Hu Hr). apply nth_lookup_Some. by rewrite (list_lookup_fmap (fun j => Sv 0 j q)), lookup_seq_lt by done.
      - rewrite dot_rsum. apply rsum_ext. intros k Hk. rewrite Rmult_1_l, dot_rsum. apply rsum_ext. intros u Hu. pose proof (op_index u r Hu Hr). rewrite <- (HOp (S k)) by lia. f_equal.
        rewrite (nth_lookup_Some (map _ (seq 0 dim)) k [] (map (fun j => Sv (S k) j q) (seq 0 nops))) by (by rewrite (list_lookup_fmap (fun k => map (fun j => Sv (S k) j q) (seq 0 nops))), lookup_seq_lt by done).
        apply nth_lookup_Some. by rewrite (list_lookup_fmap (fun j => Sv (S k) j q)), lookup_seq_lt by done. }
    pose proof (lin_lt t nq q Hq) as Hql.
    match goal with |- exists out', for_each (fun k out => b ← rd out k; b ← @?g k b; wr out k b) _ _ = _ /\ _ =>
      destruct (for_bufs g (fun _ _ => True) (fun k b => length b = size /\ forall q' u r, (D q' \/ q' = q) -> idx t nq q' -> (u < nu)%nat -> (r < nr)%nat -> nth (lin nq q' + vol t nq * (u + nu * r)) b 0 = Rq q' k u r) (S dim) out) as (out' & E & L & H) end.
    - lia.
    - intros k b Hk Hb. destruct (Hout k ltac:(lia)) as (b' & Hb' & Lb & H). rewrite Hb in Hb'. injection Hb' as <-. cbv beta.
      match goal with |- exists b', for_each ?g ?l b = Ok b' /\ _ =>
        destruct (writes_run b (fun j => Rq q k ((j / vol t nq) mod nu) ((j / vol t nq) / nu)) (for_each g l) (fun j => exists r, r ∈ seq 0 nr /\ exists u, u ∈ seq 0 nu /\ j = (lin nq q + vol t nq * (u + nu * r))%nat)) as (b' & E & L & H1 & H2) end.
      { apply writes_for; [apply NoDup_seq| |].
        - intros r Hr. apply elem_of_seq in Hr. apply writes_for; [apply NoDup_seq| |].
          + intros u Hu. apply elem_of_seq in Hu. pose proof (op_index u r ltac:(lia) ltac:(lia)) as Hop. apply writes_wr; [nia|].
            destruct (cell_digits (vol t nq) nu (lin nq q) u r Hql ltac:(lia)) as (-> & -> & ->).
            unfold Rq. rewrite dot_rsum. apply rsum_ext. intros e He. cbv beta. rewrite (HT e r) by lia. f_equal. symmetry. apply (HOp k e u). lia.
          + intros u u' j Hu Hu' -> E. apply elem_of_seq in Hu, Hu'. nia.
        - intros r r' j _ _ (u & Hu & ->) (u' & Hu' & E). apply elem_of_seq in Hu, Hu'. destruct (cell_inj (vol t nq) _ _ _ _ Hql Hql E) as [_ E']. destruct (cell_inj nu u u' r r' ltac:(lia) ltac:(lia) E') as [_ ?]. done. }
      exists b'. split; [exact E|]. split; [congruence|]. intros q' u r HD Hq' Hu Hr. pose proof (op_index u r Hu Hr) as Hop. pose proof (lin_lt t nq q' Hq') as Hql'. destruct (decide (q' = q)) as [-> |Hne].
      + rewrite H1; [|exists r; split; [apply elem_of_seq; lia|]; exists u; split; [apply elem_of_seq; lia|done]|rewrite Lb; nia].
        destruct (cell_digits (vol t nq) nu (lin nq q) u r Hql Hu) as (-> & -> & ->). done.
      + rewrite H2; [|intros (r' & _ & u' & _ & E'); destruct (cell_inj (vol t nq) _ _ _ _ Hql' Hql E') as [E'' _]; apply Hne; by apply (idx_inj t nq)|rewrite Lb; nia]. destruct HD as [HD|HD]; [|done]. by apply H.
    - exists out'. split; [exact E|]. split; [lia|]. intros k Hk. apply H. lia.
  Qed.
  Lemma points_ok size out : (vol t nq * nops <= size)%nat -> good size (fun _ => False) out ->
    exists out', for_each (evalAtQP dim nq nu us nr nf kernel time weights bk geom) (qp_inds dim nq) out = Ok out' /\ good size (fun _ => True) out'.
  Proof using Ht Hw Hbk Hge Hops.
    intros Hsize Hg. assert (H : forall l (D : list nat -> Prop) out, (forall q, q ∈ l -> idx t nq q) -> good size D out -> exists out', for_each (evalAtQP dim nq nu us nr nf kernel time weights bk geom) l out = Ok out' /\ good size (fun q => D q \/ q ∈ l) out').
    { induction l as [|q l IH]; intros D o Hl Ho.
      - exists o. split; [done|]. destruct Ho as [H1 H2]. split; [done|]. intros k Hk. destruct (H2 k Hk) as (b & ? & ? & H3). exists b. split; [done|]. split; [done|]. intros q u r [HD|HD]; [by apply H3|]. by apply elem_of_nil in HD.
      - cbn [for_each]. destruct (evalAtQP_ok size q D o Hsize) as (o' & E & Ho'); [apply Hl; left|done|]. rewrite E, bind_ok. destruct (IH _ o' ltac:(intros; apply Hl; by right) Ho') as (o2 & E2 & [H1 H2]). exists o2. split; [done|]. split; [done|].
        intros k Hk. destruct (H2 k Hk) as (b & ? & ? & H3). exists b. split; [done|]. split; [done|]. intros q' u r HD. apply H3. rewrite elem_of_cons in HD. tauto. }
    destruct (H (qp_inds dim nq) (fun _ => False) out) as (o & E & [H1 H2]); [intros q Hq; by apply qp_inds_iff|exact Hg|]. exists o. split; [done|]. split; [done|]. intros k Hk. destruct (H2 k Hk) as (b & ? & ? & H3). exists b. split; [done|]. split; [done|].
    intros q u r _ Hq. apply H3; [right; by apply qp_inds_iff|done].
  Qed.
End point.
