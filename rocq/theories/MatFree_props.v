(** C75: the matrix-free operator. *)
From Coq Require Import Ring Ring_theory Reals ZArith.
From Verif Require Import Base StdAlgo Elem_model Elem_proofs Poly_model Poly_spec Basis_model Basis_spec Gauss_model Gauss_spec Geom_model LocalSys_model LocalSys_spec OpEval_model OpEval_spec OpEval_proofs OpEval_props SumFact_model SumFact_spec SumFact3_proofs SumFact_props Dofs_model Ownership_spec Ownership_proofs ImportExport_spec NodeVals_model NodeVals_spec NodeVals_props LocalBC_model LocalBC_spec LocalBC_props Cond_spec Cond3_proofs MatFree_model MatFree_spec MatFree_proofs MatFree2_proofs MatFree3_proofs MatFree4_proofs MatFree5_proofs MatFree6_proofs MatFree7_proofs.

(** C75.  y := beta y + alpha A x with the assembled matrix [Amat] whose Dirichlet rows
    and columns are those of the identity, for any partition, any mixture of direct and
    sum-factorised kernels, any order of the additions and of the messages; the calls with
    the wrong numbers of columns throw. *)
Theorem operator_applied {F} (zero one : F) add mul sub opp is_zero counts shareds (ranks : list (mf_rank F)) dir K :
  ring_theory zero one add mul sub opp eq -> (forall b, is_zero b = true -> b = zero) ->
  mf_world counts shareds ranks dir -> (forall b r j, ranks !! b = Some r -> j ∈ mr_border r ++ mr_interior r -> applies zero add mul j (K j)) ->
  forall alpha beta x_cols y_cols n_rhs X Y xs ys, holds counts x_cols X xs -> holds counts y_cols Y ys ->
  (column_blocks x_cols y_cols n_rhs = Throw <-> ~ (x_cols = y_cols /\ x_cols <= n_rhs)) /\
  forall ys', applied zero add mul is_zero counts shareds ranks alpha beta x_cols y_cols n_rhs xs ys ys' ->
    x_cols = y_cols /\ x_cols <= n_rhs /\
    holds counts y_cols (fun g r => add (mul beta (Y g r)) (mul alpha (product zero add mul counts (Adir zero one add counts shareds ranks dir K) X g r))) ys'.
Proof.
  intros Rth Hz HW HK alpha beta xc yc n X Y xs ys HX HY. split.
  - rewrite column_blocks_ok. destruct (Nat.eqb_spec xc yc) as [-> |Hn]; cbn [andb]; [|split; [intros _ []; done|done]]. destruct (Nat.leb_spec yc n) as [H|H]; split; [done|intros Hx; by destruct Hx|intros _ []; lia|done].
  - intros ys' Ha. exact (applied_ok zero one add mul sub opp Rth counts shareds ranks dir HW K HK is_zero alpha beta xc yc n X Y xs ys ys' Hz HX HY Ha).
Qed.
Print Assumptions operator_applied.

(** C75.  No evaluation reads or writes out of bounds or throws: on every rank, after any
    import, for every order, whatever the other ranks do; and complete runs exist. *)
Theorem operator_total {F} (zero one : F) add mul sub opp is_zero counts shareds (ranks : list (mf_rank F)) dir K :
  ring_theory zero one add mul sub opp eq ->
  mf_world counts shareds ranks dir -> (forall b r j, ranks !! b = Some r -> j ∈ mr_border r ++ mr_interior r -> applies zero add mul j (K j)) ->
  forall alpha, (forall nc X Y xs ys imps, holds counts nc X xs -> holds counts nc Y ys -> all_imported counts shareds nc xs imps ->
    forall b c sh rk x imp y, counts !! b = Some c -> shareds !! b = Some sh -> ranks !! b = Some rk -> xs !! b = Some x -> imps !! b = Some imp -> ys !! b = Some y ->
    exists cb ci cd, rank_cells zero mul c (length sh) rk alpha nc (zip x imp) = Ok (cb, ci, cd) /\
      forall pre post, schedule cb ci cd pre post -> exists out, rank_result zero add c (length sh) y pre post = Ok out) /\
  forall beta nc n_rhs X Y xs ys, (forall b, is_zero b = true -> b = zero) -> nc <= n_rhs -> holds counts nc X xs -> holds counts nc Y ys -> exists ys', applied zero add mul is_zero counts shareds ranks alpha beta nc nc n_rhs xs ys ys'.
Proof.
  intros Rth HW HK alpha. split; [intros nc X Y xs ys imps HX HY HI; exact (evaluate_total zero one add mul sub opp Rth counts shareds ranks dir HW K alpha nc X Y xs ys imps HK HX HY HI)|].
  intros beta nc n X Y xs ys Hz Hn HX HY. set (blocks := if nc =? n then [seq 0 nc] else map (fun r => [r]) (seq 0 nc)).
  assert (HB : forall rs, rs ∈ blocks -> NoDup rs /\ forall r, r ∈ rs -> r < nc).
  { intros rs Hrs. unfold blocks in Hrs. destruct (nc =? n); [apply elem_of_list_singleton in Hrs as ->; split; [apply NoDup_seq|intros r Hr; apply elem_of_seq in Hr; lia]|]. apply elem_of_list_fmap in Hrs as (r & -> & Hr). apply elem_of_seq in Hr. split; [apply NoDup_singleton|]. intros r' Hr'. apply elem_of_list_singleton in Hr' as ->. lia. }
  assert (H : exists ys', blocks_applied zero add mul counts shareds ranks alpha blocks xs (map (map (scaled zero mul is_zero beta)) ys) ys').
  { clearbody blocks. pose proof (scaled_holds zero one add mul sub opp Rth counts is_zero nc Y ys beta Hz HY) as HY'. revert HY'. generalize (fun g r => mul beta (Y g r)), (map (map (scaled zero mul is_zero beta)) ys). clear HY. induction blocks as [|rs blocks IH]; intros Z zs HZ; [by exists zs|].
    destruct (HB rs) as [HN Hlt]; [left|]. destruct (evaluation_exists zero one add mul sub opp Rth counts shareds ranks dir HW K alpha (length rs) _ _ _ _ HK (columns_holds counts nc X xs rs HX Hlt) (columns_holds counts nc Z zs rs HZ Hlt)) as (imps & outs & news & H1 & H2 & H3).
    pose proof (evaluate_ok zero one add mul sub opp Rth counts shareds ranks dir HW K alpha (length rs) _ _ _ _ imps outs news HK (columns_holds counts nc X xs rs HX Hlt) (columns_holds counts nc Z zs rs HZ Hlt) H1 H2 H3) as Hnews.
    destruct (IH ltac:(intros rs' Hrs'; apply HB; by right) _ _ (put_holds counts nc Z _ zs news rs HN Hlt HZ Hnews)) as [ys' Hys]. exists ys'. cbn. by exists imps, outs, news. }
  destruct H as [ys' H]. exists ys', blocks. split; [|done]. rewrite column_blocks_ok, Nat.eqb_refl. cbn [andb]. by rewrite (proj2 (Nat.leb_le _ _) Hn).
Qed.
Print Assumptions operator_total.

(** C75.  computeDiagAndRhs: total, for every order; the diagonal is 1 at the Dirichlet
    unknowns and the sum [Dvec] of the diagonals of the element matrices elsewhere; the
    right-hand side is the prescribed value at the Dirichlet unknowns and the assembled one
    minus the Dirichlet columns elsewhere. *)
Theorem diagonal_and_rhs {F} (zero one : F) add mul sub opp counts shareds (ranks : list (mf_rank F)) dir K B nr V vals :
  ring_theory zero one add mul sub opp eq ->
  mf_world counts shareds ranks dir -> (forall b r j, ranks !! b = Some r -> j ∈ mr_border r ++ mr_interior r -> initialises zero add mul sub nr j (K j) (B j)) ->
  holds_all counts shareds nr V vals ->
  (forall b c sh rk v, counts !! b = Some c -> shareds !! b = Some sh -> ranks !! b = Some rk -> vals !! b = Some v ->
     exists cb ci, init_cells zero c (length sh) nr rk v = Ok (cb, ci) /\ forall pre post, pre ≡ₚ cb -> post ≡ₚ ci -> exists out, init_result zero add c (length sh) nr pre post = Ok out) /\
  (exists outs news, initialised zero add counts shareds ranks nr vals outs /\ all_exported add counts shareds (1 + nr) outs news) /\
  forall outs news, initialised zero add counts shareds ranks nr vals outs -> all_exported add counts shareds (1 + nr) outs news ->
    forall b c rk v new order, counts !! b = Some c -> ranks !! b = Some rk -> vals !! b = Some v -> news !! b = Some new ->
      order ≡ₚ match mr_bc rk with Some (_, sorted) => sorted | None => [] end ->
    exists diag rhs, impose one nr v order new = Ok (diag :: rhs) /\ length rhs = nr /\
      (forall g, owns counts b g -> diag !! (g - first_owned counts b) = Some (if dir g then one else Dvec zero add counts shareds ranks K g)) /\
      forall g r col, owns counts b g -> rhs !! r = Some col -> col !! (g - first_owned counts b) = Some (Bdir zero add mul sub counts shareds ranks dir K B V g r).
Proof.
  intros Rth HW HI HA. split; [|split; [exact (initialisation_exists zero one add mul sub opp Rth counts shareds ranks dir HW K B nr V vals HI HA)|]].
  - intros b c sh rk v Hc Hsh Hrk Hv. destruct (init_result_ok zero one add mul sub opp Rth counts shareds ranks dir HW K B nr V vals b c sh rk v HI HA Hc Hsh Hrk Hv) as (cb & ci & E & H). exists cb, ci. split; [done|]. intros pre post H1 H2. destruct (H pre post H1 H2) as (out & Eo & _). by exists out.
  - intros outs news Hi He b c rk v new order Hc Hrk Hv Hnew Hord.
    destruct (lookup_lt_is_Some_2 shareds b) as [sh Hsh]; [rewrite (proj1 (mw_tables _ _ _ _ HW)); by eapply lookup_lt_Some|].
    pose proof (raw_ok zero one add mul sub opp Rth counts shareds ranks dir HW K B nr V vals outs news HI HA Hi He) as Hraw.
    destruct (final_rank zero one add mul sub counts shareds ranks dir HW K B nr V vals news b c sh rk v new order HA Hraw Hc Hsh Hrk Hv Hnew Hord) as ([|diag rhs] & E & L & H); [done|]. exists diag, rhs. split; [done|]. cbn in L. split; [lia|]. split.
    + intros g Hg. destruct (H 0 diag eq_refl) as [_ H0]. exact (H0 g Hg).
    + intros g r col Hg Hr. destruct (H (S r) col Hr) as [_ H0]. exact (H0 g Hg).
Qed.
Print Assumptions diagonal_and_rhs.

(** C75.  Hence the system handed to the solver has exactly the solutions of the assembled
    equations at the free unknowns that take the prescribed values; its matrix is symmetric
    if those of the elements are. *)
Theorem dirichlet_system {F} (zero one : F) add mul sub opp counts shareds (ranks : list (mf_rank F)) dir K B :
  ring_theory zero one add mul sub opp eq ->
  (forall X V r, (forall g, g < total counts -> product zero add mul counts (Adir zero one add counts shareds ranks dir K) X g r = Bdir zero add mul sub counts shareds ranks dir K B V g r) <->
    (forall g, g < total counts -> if dir g then X g r = V g r else product zero add mul counts (Amat zero add counts shareds ranks K) X g r = Bvec zero add counts shareds ranks B g r)) /\
  ((forall b rk j i k, ranks !! b = Some rk -> j ∈ mr_border rk ++ mr_interior rk -> K j i k = K j k i) ->
    forall g h, Adir zero one add counts shareds ranks dir K g h = Adir zero one add counts shareds ranks dir K h g).
Proof.
  intros Rth. split.
  - intros X V r. exact (system_equiv zero one add mul sub opp Rth counts shareds ranks dir K B X V r).
  - exact (Adir_symmetric zero one add mul sub opp Rth counts shareds ranks dir K).
Qed.
Print Assumptions dirichlet_system.

(** C75.  The precomputed diagonal is that of the operator.
    Missing: elements with two unknowns that are the same, as periodic nodes of one element
    are (see the refutation below). *)
Theorem diagonal_partial {F} (zero one : F) add mul sub opp counts shareds (ranks : list (mf_rank F)) (dir : nat -> bool) K :
  ring_theory zero one add mul sub opp eq ->
  (forall b rk j i k l, ranks !! b = Some rk -> j ∈ mr_border rk ++ mr_interior rk -> i < n_dofs j -> k < n_dofs j -> job_dof (mr_map rk) j i = Some l -> job_dof (mr_map rk) j k = Some l -> i = k) ->
  forall g, (if dir g then one else Dvec zero add counts shareds ranks K g) = Adir zero one add counts shareds ranks dir K g g.
Proof.
  intros Rth H g. unfold Adir. destruct (dir g); [by rewrite only_true|]. exact (diagonal_eq zero one add mul sub opp Rth counts shareds ranks K g H).
Qed.
Print Assumptions diagonal_partial.

(** The kernels of C72 and C73 as jobs. *)
Definition direct_job {F} (zero : F) add mul sub nb nu us upb nr (l : list (@lupdate F)) (s : @oeval F) nodes fields : job F :=
  {| j_nodes := nodes; j_fields := fields;
     j_eval := Direct (fun nc x => '(_, y) ← evaluateLocalOperator zero add mul nb nu us upb nc x (map Some l) s; match y with Some y => Ok y | None => Throw end);
     j_init := precompute zero add mul sub nb nu us nr l |}.
(** C75.  A job evaluated by C72 applies the element matrix of C44, and is initialised from
    it. *)
Theorem direct_jobs {F} (zero one : F) add mul sub opp nb nu us upb nr l s nodes fields :
  ring_theory zero one add mul sub opp eq -> 0 < upb -> 0 < us -> (forall u, u ∈ l -> u_ops u <> []) -> e_cols s = 0 -> length nodes = nb -> length fields = nu ->
  let j := direct_job zero add mul sub nb nu us upb nr l s nodes fields in
  applies zero add mul j (expected_mat zero add mul nu us l) /\ initialises zero add mul sub nr j (expected_mat zero add mul nu us l) (expected_rhs zero add mul nu us l).
Proof.
  intros Rth Hu Hs Hl Hc <- <- j. split.
  - unfold applies. cbn [j j_eval direct_job]. intros nc x. destruct (OpEval_proofs.evaluate_ok zero one add mul sub opp Rth (length nodes) (length fields) us upb Hu Hs l x nc s) as (s' & y & E & _ & Hy); [by apply Forall_forall|done|].
    exists y. rewrite E, bind_ok. split; [done|]. intros i r Hi Hr. change (n_dofs j) with (length nodes * length fields) in Hi |- *. rewrite (Hy i r Hi Hr). by rewrite (tot zero add).
  - intros inds vals Hin. change (n_dofs j) with (length nodes * length fields) in *. destruct (operator_precompute zero one add mul sub opp (length nodes) (length fields) us nr Rth l inds vals Hs Hl Hin) as (d & rhs & E & Hd & Hr). exists d, rhs. split; [exact E|]. split; [done|]. intros i r Hi Hrr. rewrite (Hr i r Hi Hrr). by rewrite (tot zero add).
Qed.
Print Assumptions direct_jobs.

Definition sumfact_job t oe nu us nr kernel time absc ref V fields stride data junk (nodes jfields : list nat) (l : list (@lupdate R)) : job R :=
  {| j_nodes := nodes; j_fields := jfields;
     j_eval := SumFact (fun nc gather => evalLocalOperatorSumFact oe (native_dim t) nu us nc kernel time absc ref V nodes gather fields stride data junk);
     j_init := precompute 0%R Rplus Rmult Rminus (length absc ^ native_dim t) nu us nr l |}.
(** C75.  Likewise for C73.
    Missing: as for [sum_factorisation_partial]. *)
Theorem sumfact_jobs_partial t QO lam E n roots pol V oe nu us nr kernel time fields stride data nodes jfields junk l :
  t <> Line -> eigen_of (getRefQuadSize QO) (gauss_matrix ref_a ref_b ref_c) lam E ->
  2 <= n -> getLobattoPolynomial (n - 2) = Ok pol -> length roots = n - 2 -> sorted_up roots -> (forall s, poly pol s = 0%R -> s ∈ roots) ->
  length V = nodes_per_element t 1 -> Forall (fun v => length v = 3) V -> (forall bs, oe = Some bs -> 0 < bs) ->
  (forall fv fd p, length (kernel fv fd p time).1 = native_dim t + 1) ->
  (forall fv fd a b c, (kernel fv fd [a; b; c] time).1 = (kernel fv fd [a; b; 0%R] time).1) \/ Forall (fun v => nth 2 v 0%R = 0%R) V ->
  length nodes = n ^ native_dim t -> length jfields = nu -> 0 < us -> (forall u, u ∈ l -> u_ops u <> []) ->
  let absc := lobattoAbsc n roots in let ref := getReferenceQuadrature QO lam E in
  direct_points t kernel time absc ref V nodes fields stride data = Ok (map Some l) ->
  let j := sumfact_job t oe nu us nr kernel time absc ref V fields stride data junk nodes jfields l in
  applies 0%R Rplus Rmult j (expected_mat 0%R Rplus Rmult nu us l) /\ initialises 0%R Rplus Rmult Rminus nr j (expected_mat 0%R Rplus Rmult nu us l) (expected_rhs 0%R Rplus Rmult nu us l).
Proof.
  intros Ht He Hn Hp Hr Hs Hroots HV H3 Hoe Hker Hz Hnodes <- Hus Hl absc ref Hd j. assert (La : length absc = n) by (apply (lobatto_mirrored n roots); split; [done|]; split; [done|]; split; [done|]; by exists pol). assert (Rth : ring_theory 0%R 1%R Rplus Rmult Rminus Ropp eq) by (constructor; intros; ring).
  assert (Hnd : n_dofs j = n ^ native_dim t * length jfields) by (unfold n_dofs, j; cbn; by rewrite Hnodes). split.
  - unfold applies. rewrite Hnd. cbn [j j_eval sumfact_job j_nodes j_fields]. rewrite Hnodes. intros nc x gather Hg.
    destruct (sum_factorisation_partial t QO lam E n roots pol V oe (length jfields) us nc kernel time x fields stride data nodes gather junk l Ht He Hn Hp Hr Hs Hroots HV H3 Hoe Hker Hz Hnodes) as (buf & Eb & Lb & Hb); [|exact Hd|].
    { intros buf Hbuf. destruct (Hg buf) as (buf' & Eg & Lg & Hx); [lia|]. exists buf'. split; [done|]. split; [done|]. intros J u r HJ Hu Hrr. by apply nth_lookup_Some, Hx. }
    exists buf. split; [exact Eb|]. intros i r Hi Hrr. set (nu := length jfields) in *. assert (Hnu : nu <> 0) by (intros E0; rewrite E0, Nat.mul_0_r in Hi; lia). pose proof (Nat.mod_upper_bound i nu Hnu). pose proof (Nat.div_lt_upper_bound i nu (n ^ native_dim t) Hnu ltac:(lia)) as Hq.
    specialize (Hb i r Hi Hrr). unfold result_at in Hb. rewrite <- (tot 0%R Rplus), <- Hb.
    destruct (lookup_lt_is_Some_2 buf (i mod nu + nu * r + nu * nc * (i / nu))) as [v Hv]; [|rewrite Hv; f_equal; symmetry; by apply nth_lookup_Some].
    assert (i mod nu + nu * r < nu * nc) by nia. assert (nu * nc * (i / nu) + nu * nc <= n ^ native_dim t * (nu * nc)) by nia. lia.
  - intros inds vals Hin. rewrite Hnd in *. destruct (operator_precompute 0%R 1%R Rplus Rmult Rminus Ropp (n ^ native_dim t) (length jfields) us nr Rth l inds vals Hus Hl Hin) as (d & rhs & Ei & Hdd & Hrh). exists d, rhs. split; [cbn [j j_init sumfact_job]; by rewrite La|]. split; [done|]. intros i r Hi Hrr. rewrite (Hrh i r Hi Hrr). by rewrite (tot 0%R Rplus).
Qed.
Print Assumptions sumfact_jobs_partial.

(** C75.  The Dirichlet unknowns of C74 are the [mw_bc] of a world. *)
Theorem dirichlet_unknowns_known counts shareds b (P : nat -> Prop) c flags hash dir : knows counts shareds b P c flags -> (forall l, hash l ≡ₚ l) -> (forall g, dir g = true <-> P g) ->
  bc_ok counts shareds dir b (Some (dofs_set hash flags, dofs_sorted c (dofs_set hash flags))).
Proof. exact (known_bc counts shareds b P c flags hash dir). Qed.
Print Assumptions dirichlet_unknowns_known.

(** Two ranks, three unknowns 0 - 1 - 2; rank 0 evaluates the element (0, 1) directly, rank
    1 the element (2, 1) by sum factorisation; unknown 0 is prescribed to be 5. *)
Definition ex_mat (i k : nat) : Z := if i =? k then 3%Z else (-2)%Z.
Definition ex_y (n : nat) (x : nat -> nat -> Z) (i r : nat) : Z := Cond_spec.Sig 0%Z Z.add (seq 0 n) (fun k => ex_mat i k * x k r)%Z.
Definition ex_init (inds : list nat) (vals : nat -> nat -> Z) : res ((nat -> Z) * (nat -> nat -> Z)) :=
  Ok (fun i => ex_mat i i, fun i r => (Z.of_nat (i + 1) - Cond_spec.Sig 0%Z Z.add (seq 0 (length inds)) (fun k => ex_mat i (nth k inds 0%nat) * vals k r))%Z).
Definition ex_direct : job Z := {| j_nodes := [0; 1]; j_fields := [0]; j_eval := Direct (fun _ x => Ok (ex_y 2 x)); j_init := ex_init |}.
Definition ex_sumfact : job Z := {| j_nodes := [1; 0]; j_fields := [0];
  j_eval := SumFact (fun nc gather => buf ← gather (replicate (2 * nc) 9%Z);
    let x k r := nth (k + 2 * r) buf 0%Z in Ok (map (fun p => ex_y 2 x (p / nc) (p mod nc)) (seq 0 (2 * nc)))); j_init := ex_init |}.
Definition ex_mf_counts := [2; 1]. Definition ex_mf_shareds := [[]; [1]].
Definition ex_mf_ranks : list (mf_rank Z) :=
  [{| mr_map := {| ld_map := [[Some 0]; [Some 1]]; ld_owned := 2; ld_total := 2 |}; mr_bc := Some ([0], [0]); mr_border := []; mr_interior := [ex_direct] |};
   {| mr_map := {| ld_map := [[Some 1]; [Some 0]]; ld_owned := 1; ld_total := 2 |}; mr_bc := Some ([], []); mr_border := [ex_sumfact]; mr_interior := [] |}].
Definition ex_dir (g : nat) : bool := g =? 0.
Lemma ex_lt2 (i : nat) : i < 2 -> i = 0 \/ i = 1. Proof. lia. Qed.
Lemma ex_local b g l : local_of ex_mf_counts ex_mf_shareds b g = Some l -> (b = 0 /\ (g = 0 /\ l = 0 \/ g = 1 /\ l = 1)) \/ (b = 1 /\ (g = 2 /\ l = 0 \/ g = 1 /\ l = 1)).
Proof.
  intros H. destruct b as [|[|b]]; [left|right|done]; (split; [done|]).
  - unfold local_of in H. change (ex_mf_counts !! 0) with (Some 2) in H. change (ex_mf_shareds !! 0) with (Some (@nil nat)) in H. unfold mbind, option_bind in H. case_decide as Hg; [injection H as <-; cbn in *; lia|]. case_decide as Hx; [by apply elem_of_nil in Hx|done].
  - unfold local_of in H. change (ex_mf_counts !! 1) with (Some 1) in H. change (ex_mf_shareds !! 1) with (Some [1]) in H. unfold mbind, option_bind in H. case_decide as Hg; [injection H as <-; cbn in *; lia|]. case_decide as Hx; [|done]. apply elem_of_list_singleton in Hx as ->. injection H as <-. right. by vm_compute.
Qed.
Lemma ex_world : mf_world ex_mf_counts ex_mf_shareds ex_mf_ranks ex_dir.
Proof.
  split; [|done|..].
  - split; [done|]. intros b sh Hsh. destruct b as [|[|b]]; [injection Hsh as <-..|done]; (split; [repeat constructor; set_solver|]); intros g Hg; [by apply elem_of_nil in Hg|]. apply elem_of_list_singleton in Hg as ->. split; [intros (c & Hc & H); injection Hc as <-; cbn in H; lia|]. exists 0, 2. split; [done|]. cbn. lia.
  - intros b c sh r j Hc Hsh Hr Hj. destruct b as [|[|b]]; [injection Hc as <-; injection Hsh as <-; injection Hr as <-..|done]; [by apply elem_of_nil in Hj|]. apply elem_of_list_singleton in Hj as ->. split; [intros n Hn; cbn in Hn |- *; repeat (apply elem_of_cons in Hn as [-> |Hn]; [lia|]); by apply elem_of_nil in Hn|]. intros i Hi. cbn in Hi. destruct (ex_lt2 i Hi) as [-> | ->]; [exists 0|exists 1]; (split; [by vm_compute|cbn; lia]).
  - intros b c r j Hc Hr Hj. destruct b as [|[|b]]; [injection Hc as <-; injection Hr as <-..|done]; [|by apply elem_of_nil in Hj]. apply elem_of_list_singleton in Hj as ->. split; [intros n Hn; cbn in Hn |- *; repeat (apply elem_of_cons in Hn as [-> |Hn]; [lia|]); by apply elem_of_nil in Hn|]. intros i Hi. cbn in Hi. destruct (ex_lt2 i Hi) as [-> | ->]; [exists 0|exists 1]; (split; [by vm_compute|cbn; lia]).
  - intros b r Hr. destruct b as [|[|b]]; [injection Hr as <-..|done]; cbn [bc_ok mr_bc]; (split; [|split; [|split; [|repeat constructor; set_solver]]]).
    + intros g l Hl. apply ex_local in Hl as [(_ & [[-> ->]|[-> ->]])|[? _]]; [..|done]; split; try done; [by left|intros H; apply elem_of_list_singleton in H; done].
    + intros g l Hl. apply ex_local in Hl as [(_ & [[-> ->]|[-> ->]])|[? _]]; [..|done]; split; [intros _; split; [done|exists 2; split; [done|cbn; lia]]|by left|intros H; apply elem_of_list_singleton in H; done|by intros []].
    + intros l Hl. apply elem_of_list_singleton in Hl as ->. exists 0. by vm_compute.
    + intros g l Hl. apply ex_local in Hl as [[? _]|(_ & [[-> ->]|[-> ->]])]; [done|..]; split; try done; intros H; by apply elem_of_nil in H.
    + intros g l Hl. apply ex_local in Hl as [[? _]|(_ & [[-> ->]|[-> ->]])]; [done|..]; split; try (intros H; by apply elem_of_nil in H); by intros [].
    + intros l Hl. by apply elem_of_nil in Hl.
Qed.
Lemma ex_applies b r j : ex_mf_ranks !! b = Some r -> j ∈ mr_border r ++ mr_interior r -> applies 0%Z Z.add Z.mul j ex_mat.
Proof.
  intros Hr Hj. destruct b as [|[|b]]; [injection Hr as <-..|done]; cbn in Hj; apply elem_of_list_singleton in Hj as ->.
  - intros nc x. exists (ex_y 2 x). by split.
  - intros nc x gather Hg. destruct (Hg (replicate (2 * nc) 9%Z)) as (buf & E & Lb & Hb); [by rewrite replicate_length|]. eexists. split; [cbn [ex_sumfact]; rewrite E, bind_ok; cbv zeta; reflexivity|].
    intros i r Hi Hrr. change (n_dofs ex_sumfact) with 2 in *. cbn [ex_sumfact j_fields j_nodes length] in *. rewrite Nat.mod_1_r, Nat.div_1_r, !Nat.mul_1_l, Nat.add_0_l.
    assert (Hp : r + nc * i < 2 * nc) by (destruct (ex_lt2 i Hi) as [-> | ->]; lia). rewrite Elem_proofs.map_lookup, lookup_seq_lt by done. cbn [option_map option_fmap fmap Nat.add]. unfold fmap, option_fmap, option_map. f_equal.
    assert (H1 : (r + nc * i) / nc = i) by (rewrite (Nat.mul_comm nc), Nat.div_add, Nat.div_small by lia; lia). assert (H2 : (r + nc * i) mod nc = r) by (rewrite (Nat.mul_comm nc), Nat.mod_add, Nat.mod_small by lia; lia). rewrite H1, H2. unfold ex_y. apply Sig_ext. intros k Hk. apply elem_of_seq in Hk. f_equal.
    specialize (Hb k 0 r ltac:(lia) ltac:(lia) Hrr). replace (k + 2 * (0 + 1 * r)) with (k + 2 * r) in Hb by lia. replace (k * 1 + 0) with k in Hb by lia. by apply nth_lookup_Some.
Qed.
Lemma ex_initialises b r j : ex_mf_ranks !! b = Some r -> j ∈ mr_border r ++ mr_interior r -> initialises 0%Z Z.add Z.mul Z.sub 1 j ex_mat (fun i _ => Z.of_nat (i + 1)).
Proof. intros Hr Hj inds vals _. exists (fun i => ex_mat i i). eexists. destruct b as [|[|b]]; [injection Hr as <-..|done]; cbn in Hj; apply elem_of_list_singleton in Hj as ->; (split; [reflexivity|by split]). Qed.
(** The products are those of the matrix; a run exists. *)
Example operator_example : let X g (_ : nat) := Z.of_nat (10 ^ g) in let Y g (_ : nat) := Z.of_nat g in
  holds ex_mf_counts 1 X [[[1; 10]]; [[100]]]%Z /\ holds ex_mf_counts 1 Y [[[0; 1]]; [[2]]]%Z /\
  (exists ys', applied 0%Z Z.add Z.mul (Z.eqb 0) ex_mf_counts ex_mf_shareds ex_mf_ranks 2%Z 1%Z 1 1 3 [[[1; 10]]; [[100]]]%Z [[[0; 1]]; [[2]]]%Z ys') /\
  (forall ys', applied 0%Z Z.add Z.mul (Z.eqb 0) ex_mf_counts ex_mf_shareds ex_mf_ranks 2%Z 1%Z 1 1 3 [[[1; 10]]; [[100]]]%Z [[[0; 1]]; [[2]]]%Z ys' ->
     holds ex_mf_counts 1 (fun g _ => nth g [2; -279; 562] 0)%Z ys').
Proof.
  intros X Y. assert (HX : holds ex_mf_counts 1 X [[[1; 10]]; [[100]]]%Z /\ holds ex_mf_counts 1 Y [[[0; 1]]; [[2]]]%Z).
  { split; (split; [done|]); intros b c x Hc Hx; (destruct b as [|[|b]]; [injection Hc as <-; injection Hx as <-..|done]); (split; [done|]); intros r col Hr; (destruct r as [|r]; [injection Hr as <-|done]); (split; [done|]); intros g (c & Hc & Hg); injection Hc as <-; cbn in Hg; (destruct g as [|[|[|g]]]; try lia; by vm_compute). }
  destruct HX as [HX HY]. split; [done|]. split; [done|]. assert (Hz : forall b, (0 =? b)%Z = true -> b = 0%Z) by (intros b Hb; symmetry; by apply Z.eqb_eq). split.
  - destruct (operator_total 0%Z 1%Z Z.add Z.mul Z.sub Z.opp (Z.eqb 0) ex_mf_counts ex_mf_shareds ex_mf_ranks ex_dir (fun _ => ex_mat) InitialRing.Zth ex_world ex_applies 2%Z) as [_ H]. apply (H 1%Z 1 3 X Y); try done. lia.
  - intros ys' Ha. destruct (operator_applied 0%Z 1%Z Z.add Z.mul Z.sub Z.opp (Z.eqb 0) ex_mf_counts ex_mf_shareds ex_mf_ranks ex_dir (fun _ => ex_mat) InitialRing.Zth Hz ex_world ex_applies 2%Z 1%Z 1 1 3 X Y _ _ HX HY) as [_ H]. destruct (H ys' Ha) as (_ & _ & Hh). eapply holds_ext; [|exact Hh]. intros g r a Hg Hr. apply owns_total in Hg. cbn in Hg. destruct g as [|[|[|g]]]; [by vm_compute..|]. change (total ex_mf_counts) with 3 in Hg. lia.
Qed.
Example diagonal_example : map (fun g => if ex_dir g then 1%Z else Dvec 0%Z Z.add ex_mf_counts ex_mf_shareds ex_mf_ranks (fun _ => ex_mat) g) [0; 1; 2] = [1; 6; 3]%Z /\
  map (fun g => Bdir 0%Z Z.add Z.mul Z.sub ex_mf_counts ex_mf_shareds ex_mf_ranks ex_dir (fun _ => ex_mat) (fun _ i _ => Z.of_nat (i + 1)) (fun _ _ => 5%Z) g 0) [0; 1; 2] = [5; 14; 1]%Z.
Proof. by vm_compute. Qed.

(** Two periodic nodes of one element: the precomputed diagonal is 2, that of the operator
    4. *)
Definition per_mat (_ _ : nat) : Z := 1%Z.
Definition per_job : job Z := {| j_nodes := [0; 1]; j_fields := [0];
  j_eval := Direct (fun _ x => Ok (fun i r => Cond_spec.Sig 0%Z Z.add (seq 0 2) (fun k => per_mat i k * x k r)%Z));
  j_init := fun inds vals => Ok (fun i => per_mat i i, fun i r => (0 - Cond_spec.Sig 0%Z Z.add (seq 0 (length inds)) (fun k => per_mat i (nth k inds 0%nat) * vals k r))%Z) |}.
Definition per_ranks : list (mf_rank Z) := [{| mr_map := {| ld_map := [[Some 0]; [Some 0]]; ld_owned := 1; ld_total := 1 |}; mr_bc := None; mr_border := []; mr_interior := [per_job] |}].
Theorem diagonal_refuted : exists counts shareds (ranks : list (mf_rank Z)) dir K B,
  mf_world counts shareds ranks dir /\ (forall b r j, ranks !! b = Some r -> j ∈ mr_border r ++ mr_interior r -> applies 0%Z Z.add Z.mul j (K j) /\ initialises 0%Z Z.add Z.mul Z.sub 1 j (K j) (B j)) /\
  dir 0 = false /\ Dvec 0%Z Z.add counts shareds ranks K 0 = 2%Z /\ Adir 0%Z 1%Z Z.add counts shareds ranks dir K 0 0 = 4%Z.
Proof.
  exists [1], [[]], per_ranks, (fun _ => false), (fun _ => per_mat), (fun _ _ _ => 0%Z). split; [|split; [|by vm_compute]].
  - split; [|done|..].
    + split; [done|]. intros b sh Hsh. destruct b; [injection Hsh as <-|done]. split; [constructor|]. intros g Hg. by apply elem_of_nil in Hg.
    + intros b c sh r j Hc Hsh Hr Hj. destruct b; [injection Hr as <-|done]. by apply elem_of_nil in Hj.
    + intros b c r j Hc Hr Hj. destruct b; [injection Hr as <-; injection Hc as <-|done]. apply elem_of_list_singleton in Hj as ->. split; [intros n Hn; cbn in Hn |- *; repeat (apply elem_of_cons in Hn as [-> |Hn]; [lia|]); by apply elem_of_nil in Hn|]. intros i Hi. cbn in Hi. exists 0. destruct (ex_lt2 i Hi) as [-> | ->]; (split; [by vm_compute|cbn; lia]).
    + intros b r Hr. destruct b; [injection Hr as <-|done]. done.
  - intros b r j Hr Hj. destruct b; [injection Hr as <-|done]. apply elem_of_list_singleton in Hj as ->. split.
    + intros nc x. eexists. by split.
    + intros inds vals _. do 2 eexists. split; [reflexivity|]. by split.
Qed.
Print Assumptions diagonal_refuted.
