(** The whole element. *)
From Coq Require Import Reals Lra.
From Verif Require Import Base Elem_model Elem_spec Elem_proofs Poly_model Poly_spec Poly_proofs Poly2_proofs Basis_model Basis_spec Basis_proofs Basis2_proofs Gauss_model Gauss_spec Gauss_proofs Gauss2_proofs Geom_model Geom_proofs LocalSys_model LocalSys_spec OpEval_spec SumFact_model SumFact_spec SumFact_proofs SumFact2_proofs SumFact3_proofs SumFact4_proofs SumFact5_proofs SumFact6_proofs.
Local Open Scope R_scope.

Lemma absc1_mirrored i : (i < length absc1)%nat -> nth (length absc1 - 1 - i) absc1 0 = - nth i absc1 0.
Proof. intros Hi. cbn in Hi. assert (i = 0 \/ i = 1)%nat as [-> | ->] by lia; cbn; lra. Qed.
Lemma bufs_good t nq nu us nr nf kernel time w Sv Gv junk size : good t nq nu us nr nf kernel time w Sv Gv size (fun _ => False) (bufs_of junk (native_dim t + 1) size).
Proof.
  split; [unfold bufs_of; by rewrite map_length, seq_length|]. intros k Hk. exists (map (junk k) (seq 0 size)). split; [unfold bufs_of; rewrite (list_lookup_fmap (fun k => map (junk k) (seq 0 size))), lookup_seq_lt by lia; done|].
  split; [by rewrite map_length, seq_length|]. done.
Qed.
Section main.
  Context (t : etype) (Ht : t <> Line) (V : list (list R)) (HV : length V = nodes_per_element t 1) (H3 : Forall (fun v => length v = 3%nat) V).
  Context (absc : list R) (Hn : (1 < length absc)%nat) (Hnd : NoDup absc).
  Context (n : nat) (lam : nat -> R) (E : nat -> nat -> R) (Hq : (1 <= n)%nat) (He : eigen_of n (gauss_matrix ref_a ref_b ref_c) lam E).
  Context (oe : option nat) (Hoe : forall bs, oe = Some bs -> (0 < bs)%nat /\ forall i, (i < length absc)%nat -> nth (length absc - 1 - i) absc 0 = - nth i absc 0).
  Context (nu us nr : nat) (kernel : list R -> list (list R) -> list R -> R -> list mat * mat) (time : R).
  Context (Hker : forall fv fd p, length (kernel fv fd p time).1 = (native_dim t + 1)%nat).
  Context (Hz : (forall fv fd x y z, (kernel fv fd [x; y; z] time).1 = (kernel fv fd [x; y; 0] time).1) \/ Forall (fun v => nth 2 v 0 = 0) V).
  Context (x : nat -> nat -> R) (fields : list nat) (stride : nat) (data : list R) (nodes : list nat) (x_gather : list R -> res (list R)) (junk : nat -> nat -> nat -> R).
  Notation dim := (native_dim t). Notation nb := (length absc). Notation nn := (vol t nb). Notation nops := (nu * nr)%nat. Notation nf := (length fields). Notation F := (nops + nf)%nat.
  Notation w := (fun i => 2 * E O i * E O i).
  Context (Hnodes : length nodes = nn).
  Context (Hg : forall buf, exists buf', (length buf = buf_size nb n F dim -> x_gather buf = Ok buf' /\ length buf' = length buf /\ operand_in nn nu nr x buf')).
  Lemma main_ok nvals l : node_vals fields stride data nodes = Ok nvals -> Forall2 (fun e u => updd t V absc nf kernel time nvals e u) (pairs n lam E t) l ->
    exists buf, evalLocalOperatorSumFact oe dim nu us nr kernel time absc (ref_pw n lam E) V nodes x_gather fields stride data junk = Ok buf /\ (nn * (nu * nr) <= length buf)%nat /\
      times_matrix 0 Rplus Rmult nu us (nn * nu) nr l x (result_at nu nr buf).
  Proof using Ht HV H3 Hn Hnd Hq He Hoe Hker Hz Hnodes Hg.
    intros Hv HF. unfold evalLocalOperatorSumFact. cbv zeta. assert (Hn' : length (ref_pw n lam E).2 = n) by (unfold ref_pw; cbn [snd]; by rewrite map_length, seq_length). rewrite Hn'.
    assert (Hsym : forall i, (i < n)%nat -> lam (n - 1 - i)%nat = - lam i) by by apply (gauss_mirrored n lam E).
    destruct (matrices_ok absc Hn Hnd n lam) as (Im & Dm & E1 & E2 & Hm). destruct absc1_ok as [K1 K2]. destruct (matrices_ok absc1 K1 K2 n lam) as (Ig & Dg & E3 & E4 & Hmg).
    change (ref_pw n lam E).1 with (map (fun v : R => [v]) (map lam (seq 0 n))). rewrite E1, bind_ok, E2, bind_ok, E3, bind_ok, E4, bind_ok.
    assert (O1 : oe_ok nb n Im Dm oe). { intros bs Hbs. destruct (Hoe bs Hbs) as [? Hab]. split; [done|]. by apply (mirror_matrices absc Hn Hnd Hab n lam). }
    assert (O2 : oe_ok 2 n Ig Dg oe). { intros bs Hbs. destruct (Hoe bs Hbs) as [? Hab]. split; [done|]. by apply (mirror_matrices absc1 K1 K2 absc1_mirrored n lam). }
    assert (Hdim : (2 <= dim <= 3)%nat) by by apply dim23.
    assert (Hnv : length V = vol t 2) by (rewrite HV; by destruct t).
    destruct (back_all absc Hn n Hq lam Im Dm oe Hm O1 t F (buf_size nb n F dim) (fun buf => buf ← x_gather buf; field_fill fields stride data nodes nops buf) (X nu nr nvals x) (junk 0%nat) Ht eq_refl) as (bk & Ebk & Hbk).
    { intros buf Hl. destruct (Hg buf) as (b1 & Hb1). destruct (Hb1 Hl) as (Eb1 & L1 & Hop). rewrite Eb1, bind_ok.
      assert (Hsz : (nn * F <= buf_size nb n F dim)%nat) by (unfold buf_size; apply Nat.mul_le_mono_r; lia).
      destruct (field_fill_ok fields stride data nodes nops nvals b1 Hv) as (b2 & Eb2 & L2 & Hf1 & Hf2); [rewrite Hnodes; lia|]. exists b2. split; [done|]. split; [lia|]. intros f J Hf HJ. rewrite Hnodes in *. unfold X. case_decide as Hc.
      - rewrite Hf2 by done. assert (Hu : (f mod nu < nu)%nat) by (apply Nat.mod_upper_bound; nia). assert (Hr : (f / nu < nr)%nat) by (apply Nat.div_lt_upper_bound; nia).
        rewrite <- (Hop J (f mod nu) (f / nu) HJ Hu Hr)%nat. f_equal. f_equal. f_equal. pose proof (Nat.div_mod_eq f nu). lia.
      - replace f with (nops + (f - nops))%nat at 1 by lia. apply Hf1; lia. }
    rewrite Ebk, bind_ok.
    destruct (back_all absc1 K1 n Hq lam Ig Dg oe Hmg O2 t dim (buf_size 2 n dim dim) (fill_coords dim V) (fun d J => nth d (nth J V []) 0) (junk 1%nat) Ht eq_refl) as (ge & Ege & Hge).
    { intros buf Hl. change (length absc1) with 2%nat in *. assert (Hsz : (vol t 2 * dim <= buf_size 2 n dim dim)%nat) by (unfold buf_size; apply Nat.mul_le_mono_r; lia).
      destruct (fill_coords_ok dim V buf H3 ltac:(lia)) as (b1 & Eb & L & Hc); [lia|]. exists b1. split; [done|]. split; [lia|]. intros d J Hdd HJ. rewrite <- Hnv in *. by apply Hc. }
    change (length absc1) with 2%nat in Ege, Hge. rewrite Ege, bind_ok.
    assert (Hso : (vol t n * nops <= buf_size nb n nops dim)%nat) by (unfold buf_size; apply Nat.mul_le_mono_r; lia).
    destruct (points_ok t Ht n nu us nr nf kernel time (ref_pw n lam E).2 w bk ge (Sv t absc lam nu nr nvals x) (Gv t V lam)) with (size := buf_size nb n nops dim) (out := bufs_of (junk 2%nat) (dim + 1) (buf_size nb n nops dim)) as (fw & Efw & Hfl & Hfw).
    { intros i Hi. by apply (weight_ok n lam E Hq He). }
    { intros k Hk. destruct (Hbk k Hk) as (o & Ho & Lo & H). exists o. split; [done|]. split; [rewrite Lo; unfold buf_size; rewrite Nat.mul_comm; apply Nat.mul_le_mono_r; lia|]. intros f q Hf Hqi. by apply H. }
    { intros k Hk. destruct (Hge k Hk) as (o & Ho & Lo & H). exists o. split; [done|]. split; [rewrite Lo; unfold buf_size; rewrite Nat.mul_comm; apply Nat.mul_le_mono_r; lia|]. intros f q Hf Hqi. by apply H. }
    { intros q. by apply ops_len. }
    { done. }
    { apply bufs_good. }
    rewrite Efw, bind_ok. destruct (Hbk 0%nat ltac:(lia)) as (temp & Htemp & Ltemp & _). rewrite (rd_ok _ _ _ Htemp), bind_ok.
    destruct (forward_all absc Hn n Hq lam Im Dm oe Hm O1 t nops fw temp Ht Hfl) as (os & o0 & Eo & Ro & Lo & Hres).
    { apply Forall_app. split; [|constructor; [rewrite Ltemp; unfold buf_size; apply Nat.mul_le_mono_l; lia|constructor]]. apply Forall_lookup_2. intros k b Hb. pose proof (lookup_lt_Some _ _ _ Hb). destruct (Hfw k ltac:(lia)) as (b' & Hb' & Lb & _). rewrite Hb in Hb'. injection Hb' as <-. lia. }
    rewrite Eo, bind_ok. exists o0. split; [exact Ro|]. split; [destruct (Hfw 0%nat ltac:(lia)) as (b0 & Hb0 & Lb0 & _); rewrite Lo, (nth_lookup_Some _ _ [] _ Hb0); transitivity (buf_size nb n nops dim); [unfold buf_size; apply Nat.mul_le_mono_r; lia|lia]|]. intros i r Hi Hr. rewrite ltotal_seq. assert (Hnu : (0 < nu)%nat) by nia. set (I := (i / nu)%nat). set (u := (i mod nu)%nat). assert (HI : (I < nn)%nat) by (apply Nat.div_lt_upper_bound; lia). assert (Hu : (u < nu)%nat) by (apply Nat.mod_upper_bound; lia).
    assert (Ei : i = (I * nu + u)%nat) by (unfold I, u; pose proof (Nat.div_mod_eq i nu); lia). unfold result_at. fold u I. pose proof (op_index nu nr u r Hu Hr) as Hop. rewrite (Hres (u + nu * r)%nat I Hop HI).
    set (ap := fun p i eq => rsum (dim + 1) (fun k => match k with O => nth 0 (kd t V absc nf kernel time nvals p).1 (fun _ _ => 0) eq (i mod nu)%nat | S k => rsum dim (fun d => nth (S d) (kd t V absc nf kernel time nvals p).1 (fun _ _ => 0) eq (i mod nu)%nat * ent (inverse dim (Jm t V p)) d k) end * Bv t absc (i / nu) k p)).
    assert (Hap : forall e up j eq, updd t V absc nf kernel time nvals e up -> (j < nn * nu)%nat -> applied 0 Rplus Rmult nu up j eq = ap e.1 j eq).
    { intros e up j eq Hup Hj. assert (Ej : j = (j / nu * nu + j mod nu)%nat) by (pose proof (Nat.div_mod_eq j nu); lia). rewrite Ej at 1. assert (Eo' : u_ops up = (kd t V absc nf kernel time nvals e.1).1) by (by destruct Hup as [-> _]).
      rewrite (applied_ok t V absc nu nf kernel time nvals e up (j / nu) (j mod nu) eq Hup); [by rewrite Eo'|rewrite Eo'; apply Hker|apply Nat.div_lt_upper_bound; lia|apply Nat.mod_upper_bound; lia]. }
    rewrite (matrix_times t Ht V absc n lam E Hq He nu us nf kernel time nvals x l i r HF Hi (fun p j => rsum us (fun eq => ap p i eq * ap p j eq))).
    2:{ intros e up j Hup Hj. apply rsum_ext. intros eq _. by rewrite (Hap e up i eq Hup Hi), (Hap e up j eq Hup Hj). }
    rewrite rsum_swap2. apply rsum_ext. intros qi Hqi. pose proof (dig_idx t n qi ltac:(lia) Hqi) as Hix. pose proof (lin_dig t n qi ltac:(lia)) as Hlin.
    (* the contribution of the direct path at this point *)
    assert (Hup : exists a up, updd t V absc nf kernel time nvals (map lam (dig t n qi), a) up).
    { assert (Hin : exists a, (map lam (dig t n qi), a) ∈ pairs n lam E t).
      { destruct Hix as [Hdl Hdf]. clear -Hdl Hdf Ht. destruct t; [| |done]; cbn [dig pairs map] in *; rewrite !Forall_cons in Hdf.
        - destruct Hdf as (D1 & D2 & D3 & _). eexists. apply elem_of_list_In, in_concat. eexists. split; [apply in_map_iff; exists (qi mod n)%nat; split; [done|apply in_seq; lia]|]. apply in_concat. eexists. split; [apply in_map_iff; exists ((qi / n) mod n)%nat; split; [done|apply in_seq; lia]|]. apply in_map_iff. exists (qi / (n * n))%nat. split; [done|apply in_seq; lia].
        - destruct Hdf as (D1 & D2 & _). eexists. apply elem_of_list_In, in_concat. eexists. split; [apply in_map_iff; exists (qi mod n)%nat; split; [done|apply in_seq; lia]|]. apply in_map_iff. exists (qi / n)%nat. split; [done|apply in_seq; lia]. }
      destruct Hin as (a & Hin). apply elem_of_list_lookup in Hin. destruct Hin as (k & Hk). destruct (Forall2_lookup_l _ _ _ _ _ HF Hk) as (up & _ & Hup). by exists a, up. }
    destruct Hup as (a & up & Hup). rewrite (rsum_ext (dim + 1) _ (fun k => Rq t nu us nr nf kernel time w (Sv t absc lam nu nr nvals x) (Gv t V lam) (dig t n qi) k u r * Bv t absc I k (map lam (dig t n qi)))).
    - rewrite (point_eq t V HV absc lam E nu us nr nf kernel time nvals Hker Hz x (dig t n qi) a up I u r Hup HI Hu Hr). f_equal. apply rsum_ext. intros j Hj. f_equal. apply rsum_ext. intros eq _. rewrite <- Ei. by rewrite (Hap _ up i eq Hup Hi), (Hap _ up j eq Hup Hj).
    - intros k Hk. f_equal. destruct (Hfw k ltac:(lia)) as (b & Hb & _ & Hval). rewrite (nth_lookup_Some _ _ [] _ Hb). rewrite <- Hlin at 1. by apply Hval.
  Qed.
End main.
Section direct.
  Context (t : etype) (V : list (list R)) (HV : length V = nodes_per_element t 1) (H3 : Forall (fun v => length v = 3%nat) V).
  Context (absc : list R) (Hn : (1 < length absc)%nat) (Hnd : NoDup absc).
  Context (n : nat) (lam : nat -> R) (E : nat -> nat -> R) (Hq : (1 <= n)%nat) (He : eigen_of n (gauss_matrix ref_a ref_b ref_c) lam E).
  Context (kernel : list R -> list (list R) -> list R -> R -> list mat * mat) (time : R) (fields : list nat) (stride : nat) (data : list R) (nodes : list nat).
  Notation points := (direct_points t kernel time absc (ref_pw n lam E) V nodes fields stride data).
  (** The points, with the assertion on the Jacobian. *)
  Lemma direct_run nvals : node_vals fields stride data nodes = Ok nvals -> exists l, Forall2 (fun e u => updd t V absc (length fields) kernel time nvals e u) (pairs n lam E t) l /\
    points = Ok (zip_with (fun e u => if Rlt_dec 0 (determinant (native_dim t) (Jm t V e.1)) then Some u else None) (pairs n lam E t) l).
  Proof using HV H3 Hn Hnd Hq He.
    intros Hv. unfold direct_points. rewrite Hv, bind_ok, (get_ok n lam E Hq He t), bind_ok. cbn [fst snd]. rewrite zip_fst_snd. assert (Hl : forall e, e ∈ pairs n lam E t -> length e.1 = native_dim t) by (intros e He'; by apply (pairs_lam t n lam E Hq He)).
    clear He. revert Hl. generalize (pairs n lam E t). intros ps Hl. induction ps as [|e ps IH]; [exists []; split; [constructor|done]|]. destruct IH as (l & HF & El); [intros e' He'; apply Hl; by right|].
    destruct (process_ok t V HV H3 absc Hn Hnd (length fields) kernel time nvals e (Hl e ltac:(left))) as (u & Eu & Hu). exists (u :: l). split; [by constructor|]. cbn [map_res zip_with]. rewrite Eu, bind_ok, El, bind_ok. done.
  Qed.
  Lemma direct_all l : points = Ok (map Some l) -> exists nvals, node_vals fields stride data nodes = Ok nvals /\ Forall2 (fun e u => updd t V absc (length fields) kernel time nvals e u) (pairs n lam E t) l.
  Proof using HV H3 Hn Hnd Hq He.
    intros Hp. pose proof Hp as Hp'. unfold direct_points in Hp'. apply bind_inv in Hp'. destruct Hp' as (nvals & Hv & _). exists nvals. split; [done|]. destruct (direct_run nvals Hv) as (l' & HF & El). rewrite Hp in El. injection El as El. clear Hp Hv He.
    revert l El. induction HF as [|e u ps l' Hu HF IH]; intros l El; [destruct l; [constructor|done]|]. destruct l as [|a l]; [done|]. cbn [map zip_with] in El. injection El as E1 E2. constructor; [|by apply IH]. destruct (Rlt_dec _ _); [|done]. by injection E1 as ->.
  Qed.
End direct.
