(** Import and export on all ranks together. *)
From Verif Require Import Base StdAlgo Ownership_model Ownership_spec Ownership_proofs
  Mpi_model Mpi_proofs ImportExport_model ImportExport_spec ImportExport_proofs.
Local Arguments Nat.ltb : simpl never.
Local Arguments Nat.leb : simpl never.
Local Arguments Nat.eqb : simpl never.

(** ** Matching keys *)
Section keys.
  Context {V : Type} (nv : nat) (id : N) (progs : list (list (act V))) (A B : list (list nat)).
  Context (Hnv : (N.of_nat nv < 4096)%N).
  Context (LA : length A = length progs) (LB : length B = length progs).
  Context (NA : Forall NoDup A) (NB : Forall NoDup B).
  Context (Hsym : forall a b la lb, A !! a = Some la -> B !! b = Some lb -> b ∈ la <-> a ∈ lb).
  Context (RA : forall a la b, A !! a = Some la -> b ∈ la -> b < length progs).
  Context (RB : forall a la b, B !! a = Some la -> b ∈ la -> b < length progs).
  Context (HS : forall a p la, progs !! a = Some p -> A !! a = Some la ->
     map skey (omap (mk_send a) p) = map (fun vp => (a, vp.2, makeTag id vp.1)) (list_prod (seq 0 nv) la)).
  Context (HR : forall a p la, progs !! a = Some p -> B !! a = Some la ->
     map rkey (omap (mk_recv a) p) = map (fun vp => (vp.2, a, makeTag id vp.1)) (list_prod (seq 0 nv) la)).

  Lemma tags_nodup {K} (mk : nat -> nat -> K) l :
    (forall p p' t t', mk p t = mk p' t' -> p = p' /\ t = t') ->
    NoDup l -> NoDup (map (fun vp => mk vp.2 (makeTag id vp.1)) (list_prod (seq 0 nv) l)).
  Proof.
    intros Hinj Hl. apply NoDup_fmap_2_strong; [|apply prod_nodup; [apply NoDup_ListNoDup, seq_NoDup|exact Hl]].
    intros [v p] [v' p'] H H' E. apply prod_elem in H, H'. cbn [fst snd] in E.
    apply Hinj in E. destruct E as [-> E]. apply tag_inj in E; [|lia..]. destruct E as [-> _]. reflexivity.
  Qed.
  Lemma skeys_elem k : k ∈ map skey (sends_of progs)
    <-> exists a la b v, A !! a = Some la /\ b ∈ la /\ v < nv /\ k = (a, b, makeTag id v).
  Proof.
    unfold sends_of. rewrite elem_of_list_fmap. setoid_rewrite elem_of_concat_imap. split.
    - intros (s & -> & a & p & Hp & Hin). destruct (lookup_lt_is_Some_2 A a) as [la Hla].
      { rewrite LA. eapply lookup_lt_Some; eauto. }
      assert (Hk : skey s ∈ map skey (omap (mk_send a) p)) by (apply elem_of_list_fmap; eauto).
      rewrite (HS _ _ _ Hp Hla) in Hk. apply elem_of_list_fmap in Hk. destruct Hk as ([v b] & E & Hvb).
      apply prod_elem in Hvb. exists a, la, b, v. tauto.
    - intros (a & la & b & v & Hla & Hb & Hv & ->). destruct (lookup_lt_is_Some_2 progs a) as [p Hp].
      { rewrite <- LA. eapply lookup_lt_Some; eauto. }
      assert (Hk : (a, b, makeTag id v) ∈ map skey (omap (mk_send a) p)).
      { rewrite (HS _ _ _ Hp Hla). apply elem_of_list_fmap. exists (v, b). split; [reflexivity|]. apply prod_elem. auto. }
      apply elem_of_list_fmap in Hk. destruct Hk as (s & E & Hin). exists s. split; [exact E|]. eauto.
  Qed.
  Lemma rkeys_elem k : k ∈ map rkey (recvs_of progs)
    <-> exists b lb a v, B !! b = Some lb /\ a ∈ lb /\ v < nv /\ k = (a, b, makeTag id v).
  Proof.
    unfold recvs_of. rewrite elem_of_list_fmap. setoid_rewrite elem_of_concat_imap. split.
    - intros (s & -> & a & p & Hp & Hin). destruct (lookup_lt_is_Some_2 B a) as [la Hla].
      { rewrite LB. eapply lookup_lt_Some; eauto. }
      assert (Hk : rkey s ∈ map rkey (omap (mk_recv a) p)) by (apply elem_of_list_fmap; eauto).
      rewrite (HR _ _ _ Hp Hla) in Hk. apply elem_of_list_fmap in Hk. destruct Hk as ([v b] & E & Hvb).
      apply prod_elem in Hvb. exists a, la, b, v. tauto.
    - intros (a & la & b & v & Hla & Hb & Hv & ->). destruct (lookup_lt_is_Some_2 progs a) as [p Hp].
      { rewrite <- LB. eapply lookup_lt_Some; eauto. }
      assert (Hk : (b, a, makeTag id v) ∈ map rkey (omap (mk_recv a) p)).
      { rewrite (HR _ _ _ Hp Hla). apply elem_of_list_fmap. exists (v, b). split; [reflexivity|]. apply prod_elem. auto. }
      apply elem_of_list_fmap in Hk. destruct Hk as (s & E & Hin). exists s. split; [exact E|]. eauto.
  Qed.
  Lemma map_concat_imap {X Y Z} (g : Y -> Z) (f : nat -> X -> list Y) l :
    map g (concat (imap f l)) = concat (imap (fun n x => map g (f n x)) l).
  Proof. rewrite concat_map. change (map (map g) (imap f l)) with (map g <$> imap f l). rewrite fmap_imap. reflexivity. Qed.
  Lemma keys_matched : NoDup (map rkey (recvs_of progs)) /\ map skey (sends_of progs) ≡ₚ map rkey (recvs_of progs).
  Proof.
    assert (N1 : NoDup (map rkey (recvs_of progs))).
    { unfold recvs_of. rewrite map_concat_imap. apply NoDup_concat_imap.
      - intros a p Hp. destruct (lookup_lt_is_Some_2 B a) as [la Hla].
        { rewrite LB. eapply lookup_lt_Some; eauto. }
        rewrite (HR _ _ _ Hp Hla). apply (tags_nodup (fun x t => (x, a, t))).
        + intros ???? E. injection E. auto.
        + rewrite Forall_lookup in NB. eauto.
      - intros a a' p p' y Hne Hp Hp' Hy Hy'.
        apply elem_of_list_fmap in Hy, Hy'. destruct Hy as (r & -> & Hr). destruct Hy' as (r' & E & Hr').
        apply elem_of_list_omap in Hr, Hr'. destruct Hr as (x & _ & Hx). destruct Hr' as (x' & _ & Hx').
        destruct x, x'; try discriminate. injection Hx as <-. injection Hx' as <-.
        cbn in E. injection E. intros. congruence. }
    assert (N2 : NoDup (map skey (sends_of progs))).
    { unfold sends_of. rewrite map_concat_imap. apply NoDup_concat_imap.
      - intros a p Hp. destruct (lookup_lt_is_Some_2 A a) as [la Hla].
        { rewrite LA. eapply lookup_lt_Some; eauto. }
        rewrite (HS _ _ _ Hp Hla). apply (tags_nodup (fun x t => (a, x, t))).
        + intros ???? E. injection E. auto.
        + rewrite Forall_lookup in NA. eauto.
      - intros a a' p p' y Hne Hp Hp' Hy Hy'.
        apply elem_of_list_fmap in Hy, Hy'. destruct Hy as (r & -> & Hr). destruct Hy' as (r' & E & Hr').
        apply elem_of_list_omap in Hr, Hr'. destruct Hr as (x & _ & Hx). destruct Hr' as (x' & _ & Hx').
        destruct x, x'; try discriminate. injection Hx as <-. injection Hx' as <-.
        cbn in E. injection E. intros. congruence. }
    split; [exact N1|]. apply NoDup_Permutation; [exact N2|exact N1|].
    intros k. rewrite skeys_elem, rkeys_elem. split.
    - intros (a & la & b & v & Hla & Hb & Hv & ->). pose proof (RA _ _ _ Hla Hb) as Hl. rewrite <- LB in Hl.
      destruct (lookup_lt_is_Some_2 B b Hl) as [lb Hlb]. exists b, lb, a, v. split; [exact Hlb|].
      split; [apply (Hsym _ _ _ _ Hla Hlb); assumption|]. auto.
    - intros (b & lb & a & v & Hlb & Ha & Hv & ->). pose proof (RB _ _ _ Hlb Ha) as Hl. rewrite <- LA in Hl.
      destruct (lookup_lt_is_Some_2 A a Hl) as [la Hla]. exists a, la, b, v. split; [exact Hla|].
      split; [apply (Hsym _ _ _ _ Hla Hlb); assumption|]. auto.
  Qed.
End keys.

(** ** The offsets of the shared pieces *)
Lemma offsets_lookup out k :
  k <= length out -> getOffsets out !! k = Some (sum (take k (map (fun e => length e.2) out))).
Proof.
  intros Hk. unfold getOffsets. destruct k as [|k]; [reflexivity|]. cbn [lookup list_lookup].
  destruct (lookup_lt_is_Some_2 (map (fun e : nat * list nat => length e.2) out) k) as [x Hx]; [rewrite map_length; lia|].
  rewrite (inclusive_scan_lookup _ _ _ _ Hx). reflexivity.
Qed.
Lemma shared_lookup so out ins k r off len :
  cx_shared (make_ctx so out ins) !! k = Some (r, off, len)
  <-> exists ids, out !! k = Some (r, ids) /\ off = sum (take k (map length out.*2)) /\ len = length ids.
Proof.
  assert (Em : map length out.*2 = map (fun e => length e.2) out).
  { change (out.*2) with (map snd out). rewrite map_map. reflexivity. }
  rewrite Em. cbn [cx_shared make_ctx]. rewrite !lookup_zip_with.
  rewrite list_lookup_fmap, lookup_drop. destruct (out !! k) as [[r' ids]|] eqn:E; cbn [fmap option_fmap option_map mbind option_bind fst].
  - pose proof (lookup_lt_Some _ _ _ E) as Hl.
    assert (EL : map (fun e : nat * list nat => length e.2) out !! k = Some (length ids)).
    { change (map ?f out) with (f <$> out). rewrite list_lookup_fmap, E. reflexivity. }
    rewrite (offsets_lookup out k ltac:(lia)), (offsets_lookup out (1 + k) ltac:(lia)).
    cbn [mbind option_bind fst snd Nat.add]. rewrite (sum_take_S _ _ _ EL).
    split.
    + intros H. injection H as <- <- <-. exists ids. repeat split. lia.
    + intros (ids' & H & -> & ->). injection H as <- <-. do 2 f_equal. cbn. lia.
  - split; [discriminate|]. intros (ids & H & _). discriminate.
Qed.
Lemma shared_length so out ins : length (cx_shared (make_ctx so out ins)) = length out.
Proof.
  cbn [cx_shared make_ctx]. rewrite zip_with_length, fmap_length, zip_with_length, drop_length.
  unfold getOffsets. cbn [length]. rewrite inclusive_scan_length, map_length. lia.
Qed.
Lemma shared_lens so out ins : map snd (cx_shared (make_ctx so out ins)) = map length out.*2.
Proof.
  apply list_eq. intros k. change (map snd ?l) with (snd <$> l). change (map length ?l) with (length <$> l).
  rewrite !list_lookup_fmap.
  destruct (cx_shared (make_ctx so out ins) !! k) as [[[r off] len]|] eqn:E.
  - apply shared_lookup in E. destruct E as (ids & -> & _ & ->). reflexivity.
  - apply lookup_ge_None in E. rewrite shared_length in E. apply lookup_ge_None in E. rewrite E. reflexivity.
Qed.
Lemma num_shared so out ins : getNumSharedInds (make_ctx so out ins) = length (concat out.*2).
Proof. unfold getNumSharedInds. change (fun e : nat * nat * nat => e.2) with (@snd (nat * nat) nat). rewrite shared_lens, concat_length. reflexivity. Qed.

(** ** Concatenating the out table gives the sorted shared ids *)
Lemma info_concat a n f : concat (info a n f).*2 = concat (map f (seq a n)).
Proof.
  revert a. induction n as [|n IH]; intros a; [reflexivity|]. unfold info. cbn.
  destruct (f a) eqn:E; cbn; fold (info (S a) n f); rewrite IH; reflexivity.
Qed.
Lemma filter_split (own : nat -> nat) L a n :
  StronglySorted (fun x y => own x <= own y) L ->
  concat (map (fun r => List.filter (fun s => own s =? r) L) (seq a n))
  = List.filter (fun s => (a <=? own s) && (own s <? a + n)) L.
Proof.
  intros HL. revert a. induction n as [|n IH]; intros a; cbn [seq map concat].
  - induction L as [|x L IHL]; [reflexivity|]. cbn [List.filter].
    replace ((a <=? own x) && (own x <? a + 0)) with false.
    { apply IHL. inversion HL; assumption. }
    symmetry. apply andb_false_iff. destruct (Nat.leb_spec a (own x)); [right; apply Nat.ltb_ge; lia|left; reflexivity].
  - rewrite IH. clear IH. induction L as [|x L IHL]; [reflexivity|]. inversion HL as [|? ? HL' Hx]; subst. cbn [List.filter].
    destruct (Nat.eqb_spec (own x) a) as [E|E].
    + replace ((S a <=? own x) && (own x <? S a + n)) with false
        by (symmetry; apply andb_false_iff; left; apply Nat.leb_gt; lia).
      replace ((a <=? own x) && (own x <? a + S n)) with true
        by (symmetry; apply andb_true_iff; split; [apply Nat.leb_le|apply Nat.ltb_lt]; lia).
      cbn [app]. f_equal. apply IHL. exact HL'.
    + destruct (Nat.ltb_spec (own x) a) as [L1|L1].
      * replace ((S a <=? own x) && (own x <? S a + n)) with false
          by (symmetry; apply andb_false_iff; left; apply Nat.leb_gt; lia).
        replace ((a <=? own x) && (own x <? a + S n)) with false
          by (symmetry; apply andb_false_iff; left; apply Nat.leb_gt; lia).
        apply IHL. exact HL'.
      * assert (N : forall l, Forall (fun y => own x <= own y) l -> List.filter (fun s => own s =? a) l = []).
        { induction 1 as [|y l Hy Hl IHl]; [reflexivity|]. cbn. destruct (Nat.eqb_spec (own y) a); [lia|exact IHl]. }
        rewrite N by exact Hx. cbn [app].
        assert (M : forall l, Forall (fun y => own x <= own y) l ->
           List.filter (fun s => (S a <=? own s) && (own s <? S a + n)) l
           = List.filter (fun s => (a <=? own s) && (own s <? a + S n)) l).
        { induction 1 as [|y l Hy Hl IHl]; [reflexivity|]. cbn [List.filter]. rewrite IHl.
          replace ((S a <=? own y) && (own y <? S a + n)) with ((a <=? own y) && (own y <? a + S n)); [reflexivity|].
          replace (a + S n) with (S a + n) by lia. f_equal.
          destruct (Nat.leb_spec a (own y)), (Nat.leb_spec (S a) (own y)); try reflexivity; lia. }
        rewrite (M L Hx).
        replace ((S a <=? own x) && (own x <? S a + n)) with ((a <=? own x) && (own x <? a + S n)); [reflexivity|].
        replace (a + S n) with (S a + n) by lia. f_equal.
        destruct (Nat.leb_spec a (own x)), (Nat.leb_spec (S a) (own x)); try reflexivity; lia.
Qed.
Lemma owner_mono counts x y :
  y < total counts -> x <= y -> get_owner (getOwnershipDist counts) x <= get_owner (getOwnershipDist counts) y.
Proof.
  intros Hy Hxy. pose proof (get_owner_spec counts x ltac:(lia)) as Ox. pose proof (get_owner_spec counts y Hy) as Oy.
  set (a := get_owner _ x) in *. set (b := get_owner _ y) in *. clearbody a b.
  destruct (decide (a <= b)) as [|Hn]; [assumption|exfalso].
  destruct Ox as (c & Hc & Ho). destruct Oy as (d & Hd & Ho'). rewrite !first_owned_sum in *.
  pose proof (sum_take_mono counts (S b) a ltac:(lia)). rewrite (sum_take_S _ _ _ Hd) in *. lia.
Qed.
Lemma out_concat counts sh :
  Forall (fun g => g < total counts) sh ->
  concat (info 0 (length counts) (out_fun counts sh)).*2 = sort sh.
Proof.
  intros Hr. rewrite info_concat. unfold out_fun.
  assert (Hr' : Forall (fun g => g < total counts) (sort sh)).
  { rewrite Forall_forall in Hr |- *. intros g Hg. apply Hr, sort_elem, Hg. }
  rewrite filter_split.
  - rewrite Forall_forall in Hr'. assert (G : forall l, (forall g, g ∈ l -> g < total counts) ->
      List.filter (fun s => (0 <=? get_owner (getOwnershipDist counts) s) &&
         (get_owner (getOwnershipDist counts) s <? 0 + length counts)) l = l).
    { induction l as [|x l IH]; intros H; [reflexivity|]. cbn [List.filter].
      pose proof (owns_lt _ _ _ (get_owner_spec counts x (H x ltac:(left)))) as Ho.
      replace (_ && _) with true by (symmetry; apply andb_true_iff; split; [apply Nat.leb_le|apply Nat.ltb_lt]; lia).
      f_equal. apply IH. intros g Hg. apply H. right. exact Hg. }
    apply G. exact Hr'.
  - pose proof (sort_sorted sh) as Hs. apply Sorted_StronglySorted in Hs; [|intros ???; unfold Nat.le; lia].
    induction Hs as [|x l Hl IH Hx]; constructor.
    + apply IH. inversion Hr'; assumption.
    + inversion Hr' as [|? ? H1 H2]; subst. rewrite Forall_forall in Hx, H2 |- *.
      intros y Hy. apply owner_mono; [auto|]. apply Hx. exact Hy.
Qed.

(** ** List plumbing *)
Lemma omap_map_none {X Y Z} (f : Y -> option Z) (g : X -> Y) l : (forall x, f (g x) = None) -> omap f (map g l) = [].
Proof. intros H. induction l as [|x l IH]; [reflexivity|]. cbn. rewrite H. exact IH. Qed.
Lemma omap_map_some {X Y Z} (f : Y -> option Z) (g : X -> Y) (h : X -> Z) l :
  (forall x, f (g x) = Some (h x)) -> omap f (map g l) = map h l.
Proof. intros H. induction l as [|x l IH]; [reflexivity|]. cbn. rewrite H. f_equal. exact IH. Qed.
Lemma omap_imap_none {X Y Z} (f : Y -> option Z) (g : nat -> X -> Y) l : (forall n x, f (g n x) = None) -> omap f (imap g l) = [].
Proof.
  revert g. induction l as [|x l IH]; intros g H; [reflexivity|]. rewrite imap_cons. cbn. rewrite H.
  apply IH. intros. apply H.
Qed.
Lemma omap_imap_some {X Y Z} (f : Y -> option Z) (g : nat -> X -> Y) (h : nat -> X -> Z) l :
  (forall n x, f (g n x) = Some (h n x)) -> omap f (imap g l) = imap h l.
Proof.
  revert g h. induction l as [|x l IH]; intros g h H; [reflexivity|]. rewrite !imap_cons. cbn. rewrite H.
  f_equal. apply IH. intros. apply H.
Qed.
Lemma map_imap_const {X Y Z} (f : Y -> Z) (g : nat -> X -> Y) (h : X -> Z) l :
  (forall n x, f (g n x) = h x) -> map f (imap g l) = map h l.
Proof.
  revert g. induction l as [|x l IH]; intros g H; [reflexivity|]. rewrite imap_cons. cbn. rewrite H.
  f_equal. apply IH. intros. apply H.
Qed.
Lemma prod_map {A B C} (l : list A) (L : list B) (f : B -> C) :
  list_prod l (map f L) = map (fun ve => (ve.1, f ve.2)) (list_prod l L).
Proof.
  induction l as [|a l IH]; [reflexivity|]. cbn. rewrite map_app, IH, !map_map. reflexivity.
Qed.
Lemma sub_lookup {A} (l : list A) off len i : i < len -> take len (drop off l) !! i = l !! (off + i).
Proof. intros Hi. rewrite lookup_take by exact Hi. apply lookup_drop. Qed.

Section world.
  Context {V : Type} (counts : list nat) (shareds : list (list nat)) (sos : list ownership).
  Context (Hlen : length counts = length shareds).
  Context (Hnd : Forall NoDup shareds).
  Context (Hrange : Forall (Forall (fun g => g < total counts)) shareds).
  Context (Hmk : make_all counts shareds = Ok sos).
  Context (ins : list nbr_info) (Lins : length ins = length counts).
  Context (Hins : forall a t, ins !! a = Some t -> table_correct counts shareds a t
     /\ forall b ids, (b, ids) ∈ t <-> exists o, all_outs sos !! b = Some o /\ (a, ids) ∈ o).
  Context (nv : nat) (id : N) (bufs : list (buffers V)) (ies : list (impexp V)).
  Context (Lbufs : length bufs = length counts) (Lies : length ies = length counts).
  Context (Hready : forall r so out t b ie,
     sos !! r = Some so -> all_outs sos !! r = Some out -> ins !! r = Some t -> bufs !! r = Some b -> ies !! r = Some ie ->
     ready (make_ctx so out t) nv id (b_owned b) (b_ostride b) (b_shared b) (b_sstride b) ie).
  Context (Htag : (N.of_nat nv < 4096)%N).
  Notation P := (length counts).

  Record rank_data (r c : nat) (sh : list nat) (out t : nbr_info) (b : buffers V) (ie : impexp V) (cx : ctx) : Prop := {
    d_c : counts !! r = Some c; d_sh : shareds !! r = Some sh;
    d_out : all_outs sos !! r = Some out; d_in : ins !! r = Some t;
    d_b : bufs !! r = Some b; d_ie : ies !! r = Some ie;
    d_nd : NoDup sh;
    d_outE : out = info 0 P (out_fun counts sh);
    d_cat : concat out.*2 = sort sh;
    d_cx : cx = make_ctx {| so_begin := first_owned counts r; so_end := first_owned counts r + c; so_shared := sort sh |} out t;
    d_ready : ready cx nv id (b_owned b) (b_ostride b) (b_shared b) (b_sstride b) ie }.
  Lemma rank_data_ex r : r < P -> exists c sh out t b ie cx, rank_data r c sh out t b ie cx.
  Proof.
    intros Hr. destruct (lookup_lt_is_Some_2 shareds r ltac:(lia)) as [sh Hsh].
    destruct (make_all_inv _ _ _ Hlen Hmk) as (L & E & G). destruct (G _ _ Hsh) as (so & c & Hso & Hc & Hm).
    destruct (lookup_lt_is_Some_2 ins r ltac:(lia)) as [t Ht].
    destruct (lookup_lt_is_Some_2 bufs r ltac:(lia)) as [b Hb].
    destruct (lookup_lt_is_Some_2 ies r ltac:(lia)) as [ie Hie].
    pose proof (outs_lookup _ _ _ Hlen Hrange Hmk _ _ Hsh) as Ho.
    exists c, sh, (info 0 P (out_fun counts sh)), t, b, ie, (make_ctx so (info 0 P (out_fun counts sh)) t).
    apply make_inv in Hm. destruct Hm as [-> _].
    rewrite Forall_lookup in Hnd, Hrange.
    split; eauto. apply out_concat. eauto.
  Qed.

  Section per_rank.
    Context (r c : nat) (sh : list nat) (out t : nbr_info) (b : buffers V) (ie : impexp V) (cx : ctx).
    Context (D : rank_data r c sh out t b ie cx).
    Notation fo := (first_owned counts r).
    Notation oi := (getOwnedInds cx).

    Lemma in_row q ids : (q, ids) ∈ t -> ids <> [] /\ StronglySorted lt ids /\ forall g, g ∈ ids -> owns counts r g.
    Proof.
      intros Hin. destruct (Hins _ _ (d_in _ _ _ _ _ _ _ _ D)) as [(_ & T & _) _].
      destruct (T _ _ Hin) as (H1 & H2 & sh' & _ & H3). split; [exact H2|]. split; [exact H1|].
      intros g Hg. apply H3, Hg.
    Qed.
    Lemma cx_owned_eq : cx_owned cx = map (fun e => (e.1, map (fun g => g - fo) e.2)) t.
    Proof.
      rewrite (d_cx _ _ _ _ _ _ _ _ D). cbn [cx_owned make_ctx]. unfold flattenOwned. apply map_ext_in.
      intros [q ids] Hin%elem_of_list_In. cbn [fst snd]. f_equal. apply map_ext_in. intros g Hg%elem_of_list_In.
      destruct (in_row _ _ Hin) as (_ & _ & Ho). destruct (Ho _ Hg) as (c' & Hc' & Hb).
      pose proof (d_c _ _ _ _ _ _ _ _ D) as Hc. assert (c' = c) by congruence. subst c'.
      unfold getLocalIndex, isOwned. cbn [so_begin so_end].
      replace ((fo <=? g) && (g <? fo + c)) with true; [reflexivity|].
      symmetry. apply andb_true_iff. split; [apply Nat.leb_le|apply Nat.ltb_lt]; lia.
    Qed.
    Lemma owned_row k q l : cx_owned cx !! k = Some (q, l) <-> exists ids, t !! k = Some (q, ids) /\ l = map (fun g => g - fo) ids.
    Proof.
      rewrite cx_owned_eq. change (map ?f t) with (f <$> t). rewrite list_lookup_fmap. destruct (t !! k) as [[q' ids]|]; cbn.
      - split; [intros H; injection H as <- <-; eauto|]. intros (ids' & H & ->). injection H as <- <-. reflexivity.
      - split; [discriminate|]. intros (? & ? & _). discriminate.
    Qed.
    Lemma in_keys : (cx_owned cx).*1 = t.*1.
    Proof. rewrite cx_owned_eq. change (map ?f t) with (f <$> t). rewrite <- list_fmap_compose. reflexivity. Qed.
    Lemma in_nodup : NoDup t.*1.
    Proof. apply strict_nodup, (proj1 (Hins _ _ (d_in _ _ _ _ _ _ _ _ D))). Qed.
    Lemma out_ok : NoDup out.*1 /\ Forall (fun k => k < P) out.*1.
    Proof.
      pose proof (outs_ok _ _ _ Hlen Hrange Hmk _ _ (d_out _ _ _ _ _ _ _ _ D)) as H.
      rewrite (outs_length _ _ _ Hlen Hmk) in H. exact H.
    Qed.
    Lemma out_row q ids : (q, ids) ∈ out -> ids <> [] /\ forall g, g ∈ ids <-> g ∈ sh /\ owns counts q g.
    Proof.
      rewrite (d_outE _ _ _ _ _ _ _ _ D). intros H. apply info_elem in H. destruct H as (_ & -> & Hne).
      split; [exact Hne|]. intros g. apply (out_fun_elem _ _ Hrange _ _ _ _ (d_sh _ _ _ _ _ _ _ _ D)).
    Qed.
    Lemma shared_nonempty : Forall (fun e => e.2 <> 0) (cx_shared cx).
    Proof.
      rewrite Forall_lookup. intros k [[q off] len] H. rewrite (d_cx _ _ _ _ _ _ _ _ D) in H.
      apply shared_lookup in H. destruct H as (ids & Ho & _ & ->). cbn.
      apply elem_of_list_lookup_2 in Ho. apply out_row in Ho. destruct Ho as [Hne _]. destruct ids; [contradiction|cbn; lia].
    Qed.
    Lemma shared_keys : map (fun e => e.1.1) (cx_shared cx) = out.*1.
    Proof.
      apply list_eq. intros k. change (map ?f ?l) with (f <$> l). rewrite !list_lookup_fmap.
      destruct (cx_shared cx !! k) as [[[q off] len]|] eqn:E; rewrite (d_cx _ _ _ _ _ _ _ _ D) in E.
      - apply shared_lookup in E. destruct E as (ids & -> & _ & _). reflexivity.
      - apply lookup_ge_None in E. rewrite shared_length in E. apply lookup_ge_None in E. rewrite E. reflexivity.
    Qed.
    (** where an index stands in the shared buffer *)
    Lemma shared_pos k q ids i g :
      out !! k = Some (q, ids) -> ids !! i = Some g -> sum (take k (map length out.*2)) + i = entry_of sh g /\ g ∈ sh.
    Proof.
      intros Hk Hi. assert (E : sort sh !! (sum (take k (map length out.*2)) + i) = Some g).
      { rewrite <- (d_cat _ _ _ _ _ _ _ _ D). apply (concat_lookup _ k ids); [|exact Hi]. rewrite list_lookup_fmap, Hk. reflexivity. }
      split; [symmetry; apply entry_of_sorted; [apply D|exact E]|]. apply sort_elem. eapply elem_of_list_lookup_2; eauto.
    Qed.
    (** the pieces of the pack buffer *)
    Lemma row_len_map : map (fun e => length e.2) (cx_owned cx) = map length (cx_owned cx).*2.
    Proof. change ((cx_owned cx).*2) with (map snd (cx_owned cx)). rewrite map_map. reflexivity. Qed.
    Lemma row_len_t : map length (cx_owned cx).*2 = map length t.*2.
    Proof.
      rewrite cx_owned_eq. change (?l.*2) with (map snd l). rewrite !map_map. cbn [snd]. apply map_ext. intros. apply map_length.
    Qed.
    Lemma oi_row_pos k q ids i g :
      t !! k = Some (q, ids) -> ids !! i = Some g ->
      oi !! (sum (take k (map length t.*2)) + i) = Some (g - fo).
    Proof.
      intros Hk Hi. unfold getOwnedInds. rewrite <- row_len_t. apply (concat_lookup _ k (map (fun g => g - fo) ids)).
      - rewrite list_lookup_fmap. rewrite (proj2 (owned_row k q _) (ex_intro _ ids (conj Hk eq_refl))). reflexivity.
      - change (map ?f ids) with (f <$> ids). rewrite list_lookup_fmap, Hi. reflexivity.
    Qed.
    Lemma oi_inv p j : oi !! p = Some j ->
      exists k q ids i g, t !! k = Some (q, ids) /\ ids !! i = Some g /\ j = g - fo
        /\ p = sum (take k (map length t.*2)) + i.
    Proof.
      intros H. unfold getOwnedInds in H. apply concat_lookup_inv in H. destruct H as (k & l & i & Hk & Hi & ->).
      rewrite list_lookup_fmap in Hk. destruct (cx_owned cx !! k) as [[q l']|] eqn:E; [|discriminate]. injection Hk as <-.
      apply owned_row in E. destruct E as (ids & Ht & ->). change (map ?f ids) with (f <$> ids) in Hi.
      rewrite list_lookup_fmap in Hi. destruct (ids !! i) as [g|] eqn:Eg; [|discriminate]. injection Hi as <-.
      rewrite row_len_t. exists k, q, ids, i, g. auto.
    Qed.
    Lemma oi_len : length oi = sum (map length t.*2).
    Proof. unfold getOwnedInds. rewrite concat_length, row_len_t. reflexivity. Qed.
    Lemma piece_pos v k : v < nv -> k <= length t ->
      sum (take (v * length t + k) (map (fun ve : nat * (nat * list nat) => length ve.2.2) (list_prod (seq 0 nv) (cx_owned cx))))
      = v * length oi + sum (take k (map length t.*2)).
    Proof.
      intros Hv Hk. assert (E : length t = length (cx_owned cx)) by (rewrite cx_owned_eq, map_length; reflexivity).
      rewrite E in *. rewrite (prod_pos nv (cx_owned cx) (fun e => length e.2) v k 0 Hv Hk).
      rewrite row_len_map, row_len_t, oi_len. reflexivity.
    Qed.

    (** Import: what this rank sends and receives *)
    Definition imp_prog (buf : list V) : list (act V) := recv_acts cx nv id (b_sstride b) ++ send_acts cx nv id buf.
    Lemma imp_skeys buf :
      map skey (omap (mk_send r) (imp_prog buf)) = map (fun vp => (r, vp.2, makeTag id vp.1)) (list_prod (seq 0 nv) t.*1).
    Proof.
      unfold imp_prog. rewrite omap_app. unfold recv_acts. rewrite omap_map_none by reflexivity. cbn [app]. unfold send_acts.
      erewrite omap_imap_some; [|intros n x; reflexivity].
      rewrite (map_imap_const _ _ (fun ve : nat * (nat * list nat) => (r, ve.2.1, makeTag id ve.1))) by reflexivity.
      rewrite <- in_keys. change ((cx_owned cx).*1) with (map fst (cx_owned cx)). rewrite prod_map, map_map. reflexivity.
    Qed.
    Lemma imp_rkeys buf :
      map rkey (omap (mk_recv r) (imp_prog buf)) = map (fun vp => (vp.2, r, makeTag id vp.1)) (list_prod (seq 0 nv) out.*1).
    Proof.
      unfold imp_prog. rewrite omap_app. unfold send_acts. rewrite omap_imap_none by reflexivity. rewrite app_nil_r. unfold recv_acts.
      erewrite omap_map_some; [|intros x; reflexivity]. rewrite map_map.
      rewrite <- shared_keys. rewrite prod_map, map_map. reflexivity.
    Qed.
    Lemma imp_send_inv buf s : s ∈ omap (mk_send r) (imp_prog buf) ->
      exists v k q ids, v < nv /\ t !! k = Some (q, ids)
        /\ s = {| s_src := r; s_dst := q; s_tag := makeTag id v;
                  s_data := take (length ids) (drop (v * length oi + sum (take k (map length t.*2))) buf) |}.
    Proof.
      unfold imp_prog. rewrite omap_app. unfold recv_acts. rewrite omap_map_none by reflexivity. cbn [app]. unfold send_acts.
      erewrite omap_imap_some; [|intros n x; reflexivity]. intros H. apply elem_of_lookup_imap_1 in H.
      destruct H as (n & [v [q l]] & -> & Hn). apply prod_lookup_inv in Hn. destruct Hn as (k & Hk & Hv & ->).
      rewrite Nat.sub_0_r. apply owned_row in Hk. destruct Hk as (ids & Ht & ->).
      assert (E : length (cx_owned cx) = length t) by (rewrite cx_owned_eq, map_length; reflexivity). rewrite E.
      exists v, k, q, ids. split; [lia|]. split; [exact Ht|]. cbn [fst snd].
      pose proof (lookup_lt_Some _ _ _ Ht).
      rewrite piece_pos by lia. rewrite map_length. reflexivity.
    Qed.
    Lemma imp_recv_inv buf x : x ∈ omap (mk_recv r) (imp_prog buf) <->
      exists v k q ids, v < nv /\ out !! k = Some (q, ids)
        /\ x = {| r_dst := r; r_src := q; r_tag := makeTag id v;
                  r_off := v * b_sstride b + sum (take k (map length out.*2)); r_len := length ids |}.
    Proof.
      unfold imp_prog. rewrite omap_app. unfold send_acts. rewrite omap_imap_none by reflexivity. rewrite app_nil_r. unfold recv_acts.
      erewrite omap_map_some; [|intros y; reflexivity]. rewrite elem_of_list_fmap. split.
      - intros ([v [[q off] len]] & -> & H). apply prod_elem in H. destruct H as [Hv H].
        apply elem_of_list_lookup_1 in H. destruct H as [k H]. rewrite (d_cx _ _ _ _ _ _ _ _ D) in H.
        apply shared_lookup in H. destruct H as (ids & Ho & -> & ->). exists v, k, q, ids. auto.
      - intros (v & k & q & ids & Hv & Ho & ->). exists (v, (q, sum (take k (map length out.*2)), length ids)).
        split; [reflexivity|]. apply prod_elem. split; [exact Hv|]. apply (elem_of_list_lookup_2 _ k).
        rewrite (d_cx _ _ _ _ _ _ _ _ D). apply shared_lookup. eauto.
    Qed.
    (** Export *)
    Definition exp_prog : list (act V) := xrecv_acts cx nv id ++ xsend_acts cx nv id (b_shared b) (b_sstride b).
    Lemma exp_skeys :
      map skey (omap (mk_send r) exp_prog) = map (fun vp => (r, vp.2, makeTag id vp.1)) (list_prod (seq 0 nv) out.*1).
    Proof.
      unfold exp_prog. rewrite omap_app. unfold xrecv_acts. rewrite omap_imap_none by reflexivity. cbn [app]. unfold xsend_acts.
      erewrite omap_map_some; [|intros x; reflexivity]. rewrite map_map.
      rewrite <- shared_keys. rewrite prod_map, map_map. reflexivity.
    Qed.
    Lemma exp_rkeys :
      map rkey (omap (mk_recv r) exp_prog) = map (fun vp => (vp.2, r, makeTag id vp.1)) (list_prod (seq 0 nv) t.*1).
    Proof.
      unfold exp_prog. rewrite omap_app. unfold xsend_acts. rewrite omap_map_none by reflexivity. rewrite app_nil_r. unfold xrecv_acts.
      erewrite omap_imap_some; [|intros n x; reflexivity].
      rewrite (map_imap_const _ _ (fun ve : nat * (nat * list nat) => (ve.2.1, r, makeTag id ve.1))) by reflexivity.
      rewrite <- in_keys. change ((cx_owned cx).*1) with (map fst (cx_owned cx)). rewrite prod_map, map_map. reflexivity.
    Qed.
    Lemma exp_send_inv s : s ∈ omap (mk_send r) exp_prog ->
      exists v k q ids, v < nv /\ out !! k = Some (q, ids)
        /\ s = {| s_src := r; s_dst := q; s_tag := makeTag id v;
                  s_data := take (length ids) (drop (v * b_sstride b + sum (take k (map length out.*2))) (b_shared b)) |}.
    Proof.
      unfold exp_prog. rewrite omap_app. unfold xrecv_acts. rewrite omap_imap_none by reflexivity. cbn [app]. unfold xsend_acts.
      erewrite omap_map_some; [|intros y; reflexivity]. rewrite elem_of_list_fmap.
      intros ([v [[q off] len]] & -> & H). apply prod_elem in H. destruct H as [Hv H].
      apply elem_of_list_lookup_1 in H. destruct H as [k H]. rewrite (d_cx _ _ _ _ _ _ _ _ D) in H.
      apply shared_lookup in H. destruct H as (ids & Ho & -> & ->). exists v, k, q, ids. auto.
    Qed.
    Lemma exp_recv_inv x : x ∈ omap (mk_recv r) exp_prog <->
      exists v k q ids, v < nv /\ t !! k = Some (q, ids)
        /\ x = {| r_dst := r; r_src := q; r_tag := makeTag id v;
                  r_off := v * length oi + sum (take k (map length t.*2)); r_len := length ids |}.
    Proof.
      unfold exp_prog. rewrite omap_app. unfold xsend_acts. rewrite omap_map_none by reflexivity. rewrite app_nil_r. unfold xrecv_acts.
      erewrite omap_imap_some; [|intros n y; reflexivity].
      assert (E : length (cx_owned cx) = length t) by (rewrite cx_owned_eq, map_length; reflexivity).
      split.
      - intros H. apply elem_of_lookup_imap_1 in H.
        destruct H as (n & [v [q l]] & -> & Hn). apply prod_lookup_inv in Hn. destruct Hn as (k & Hk & Hv & ->).
        rewrite Nat.sub_0_r. apply owned_row in Hk. destruct Hk as (ids & Ht & ->). rewrite E.
        exists v, k, q, ids. split; [lia|]. split; [exact Ht|]. cbn [fst snd].
        pose proof (lookup_lt_Some _ _ _ Ht).
        rewrite piece_pos by lia. rewrite map_length. reflexivity.
      - intros (v & k & q & ids & Hv & Ht & ->). pose proof (lookup_lt_Some _ _ _ Ht) as Hk.
        pose proof (proj2 (owned_row k q _) (ex_intro _ ids (conj Ht eq_refl))) as Ho.
        pose proof (prod_lookup nv (cx_owned cx) v k _ 0 Hv Ho) as Hp. cbn [Nat.add] in Hp.
        pose proof (elem_of_lookup_imap_2 (fun n (ve : nat * (nat * list nat)) =>
          {| r_dst := r; r_src := ve.2.1; r_tag := makeTag id ve.1;
             r_off := sum (take n (map (fun ve : nat * (nat * list nat) => length ve.2.2) (list_prod (seq 0 nv) (cx_owned cx))));
             r_len := length ve.2.2 |}) _ _ _ Hp) as Hin.
        cbn [fst snd] in Hin. rewrite E, piece_pos, map_length in Hin by lia. exact Hin.
    Qed.
  End per_rank.

  Lemma rank_data_fun r c sh out t b ie cx c' sh' out' t' b' ie' cx' :
    rank_data r c sh out t b ie cx -> rank_data r c' sh' out' t' b' ie' cx' ->
    c' = c /\ sh' = sh /\ out' = out /\ t' = t /\ b' = b /\ ie' = ie /\ cx' = cx.
  Proof.
    intros [H1 H2 H3 H4 H5 H6 _ _ _ H7 _] [G1 G2 G3 G4 G5 G6 _ _ _ G7 _].
    assert (c' = c) by congruence. assert (sh' = sh) by congruence. assert (out' = out) by congruence.
    assert (t' = t) by congruence. subst. repeat split; congruence.
  Qed.
  Lemma list_choice {X} (R : nat -> X -> Prop) n :
    (forall r, r < n -> exists x, R r x) -> exists l, length l = n /\ forall r x, l !! r = Some x -> R r x.
  Proof.
    induction n as [|n IH]; intros H; [exists []; split; [reflexivity|intros r x Hx; discriminate]|].
    destruct IH as (l & Hl & HR); [intros r Hr; apply H; lia|]. destruct (H n ltac:(lia)) as [x Hx].
    exists (l ++ [x]). split; [rewrite app_length; cbn; lia|]. intros r y Hy. apply lookup_app_Some in Hy.
    destruct Hy as [Hy|[Hge Hy]]; [apply HR; exact Hy|].
    apply list_lookup_singleton_Some in Hy. destruct Hy as [E ->]. replace r with n by lia. exact Hx.
  Qed.
  Lemma keys_unique {X} (l : list (nat * X)) k x y : NoDup l.*1 -> (k, x) ∈ l -> (k, y) ∈ l -> x = y.
  Proof.
    intros Hn Hx Hy. apply elem_of_list_lookup_1 in Hx, Hy. destruct Hx as [i Hi]. destruct Hy as [j Hj].
    assert (i = j). { eapply (NoDup_lookup l.*1 i j k); [exact Hn|..]; rewrite list_lookup_fmap; [rewrite Hi|rewrite Hj]; reflexivity. }
    congruence.
  Qed.
  Lemma table_sym a b ta ob : ins !! a = Some ta -> all_outs sos !! b = Some ob -> b ∈ ta.*1 <-> a ∈ ob.*1.
  Proof.
    intros Ha Hb. destruct (Hins _ _ Ha) as [_ S]. rewrite !elem_of_list_fmap. split.
    - intros ([q ids] & E & Hin). cbn in E. subst q. apply S in Hin. destruct Hin as (o & Ho & Hin).
      assert (o = ob) by congruence. subst. exists (a, ids). auto.
    - intros ([q ids] & E & Hin). cbn in E. subst q. exists (b, ids). split; [reflexivity|]. apply S. eauto.
  Qed.
  Lemma in_ranks a t b : ins !! a = Some t -> b ∈ t.*1 -> b < P.
  Proof.
    intros Ht Hb. destruct (Hins _ _ Ht) as [(_ & T & _) _]. apply elem_of_list_fmap in Hb.
    destruct Hb as ([q ids] & -> & Hin). destruct (T _ _ Hin) as (_ & _ & sh & Hsh & _). apply lookup_lt_Some in Hsh. cbn. lia.
  Qed.
  Lemma out_ranks b o a : all_outs sos !! b = Some o -> a ∈ o.*1 -> a < P.
  Proof.
    intros Ho Ha. pose proof (outs_ok _ _ _ Hlen Hrange Hmk _ _ Ho) as [_ H].
    rewrite (outs_length _ _ _ Hlen Hmk) in H. rewrite Forall_forall in H. auto.
  Qed.

  Definition same_shape (progs : list (list (act V))) : Prop := length progs = P.
  Lemma import_keys progs :
    length progs = P ->
    (forall r p, progs !! r = Some p -> exists buf c sh out t b ie cx, rank_data r c sh out t b ie cx /\ p = imp_prog b cx buf) ->
    NoDup (map rkey (recvs_of progs)) /\ map skey (sends_of progs) ≡ₚ map rkey (recvs_of progs).
  Proof.
    intros HL HP. apply (keys_matched nv id progs (map (fun t : nbr_info => t.*1) ins) (map (fun t : nbr_info => t.*1) (all_outs sos))).
    - exact Htag.
    - rewrite map_length. lia.
    - rewrite map_length, (outs_length _ _ _ Hlen Hmk). lia.
    - rewrite Forall_lookup. intros r l Hl. change (map ?f ins) with (f <$> ins) in Hl. rewrite list_lookup_fmap in Hl.
      destruct (ins !! r) as [t|] eqn:E; [|discriminate]. injection Hl as <-. apply strict_nodup, (proj1 (Hins _ _ E)).
    - rewrite Forall_lookup. intros r l Hl. change (map ?f ?l) with (f <$> l) in Hl. rewrite list_lookup_fmap in Hl.
      destruct (all_outs sos !! r) as [t|] eqn:E; [|discriminate]. injection Hl as <-.
      apply (outs_ok _ _ _ Hlen Hrange Hmk _ _ E).
    - intros a b la lb Ha Hb. change (map ?f ?l) with (f <$> l) in Ha, Hb. rewrite list_lookup_fmap in Ha, Hb.
      destruct (ins !! a) as [t|] eqn:E; [|discriminate]. injection Ha as <-.
      destruct (all_outs sos !! b) as [o|] eqn:E'; [|discriminate]. injection Hb as <-. apply table_sym; assumption.
    - intros a la b Ha Hb. change (map ?f ?l) with (f <$> l) in Ha. rewrite list_lookup_fmap in Ha.
      destruct (ins !! a) as [t|] eqn:E; [|discriminate]. injection Ha as <-. rewrite HL. eapply in_ranks; eauto.
    - intros a la b Ha Hb. change (map ?f ?l) with (f <$> l) in Ha. rewrite list_lookup_fmap in Ha.
      destruct (all_outs sos !! a) as [t|] eqn:E; [|discriminate]. injection Ha as <-. rewrite HL. eapply out_ranks; eauto.
    - intros a p la Hp Ha. change (map ?f ?l) with (f <$> l) in Ha. rewrite list_lookup_fmap in Ha.
      destruct (HP _ _ Hp) as (buf & c & sh & out & t & b & ie & cx & D & ->).
      rewrite (d_in _ _ _ _ _ _ _ _ D) in Ha. injection Ha as <-. eapply imp_skeys; eauto.
    - intros a p la Hp Ha. change (map ?f ?l) with (f <$> l) in Ha. rewrite list_lookup_fmap in Ha.
      destruct (HP _ _ Hp) as (buf & c & sh & out & t & b & ie & cx & D & ->).
      rewrite (d_out _ _ _ _ _ _ _ _ D) in Ha. injection Ha as <-. eapply imp_rkeys; eauto.
  Qed.
  Lemma export_keys progs :
    length progs = P ->
    (forall r p, progs !! r = Some p -> exists c sh out t b ie cx, rank_data r c sh out t b ie cx /\ p = exp_prog b cx) ->
    NoDup (map rkey (recvs_of progs)) /\ map skey (sends_of progs) ≡ₚ map rkey (recvs_of progs).
  Proof.
    intros HL HP. apply (keys_matched nv id progs (map (fun t : nbr_info => t.*1) (all_outs sos)) (map (fun t : nbr_info => t.*1) ins)).
    - exact Htag.
    - rewrite map_length, (outs_length _ _ _ Hlen Hmk). lia.
    - rewrite map_length. lia.
    - rewrite Forall_lookup. intros r l Hl. change (map ?f ?l) with (f <$> l) in Hl. rewrite list_lookup_fmap in Hl.
      destruct (all_outs sos !! r) as [t|] eqn:E; [|discriminate]. injection Hl as <-.
      apply (outs_ok _ _ _ Hlen Hrange Hmk _ _ E).
    - rewrite Forall_lookup. intros r l Hl. change (map ?f ins) with (f <$> ins) in Hl. rewrite list_lookup_fmap in Hl.
      destruct (ins !! r) as [t|] eqn:E; [|discriminate]. injection Hl as <-. apply strict_nodup, (proj1 (Hins _ _ E)).
    - intros a b la lb Ha Hb. change (map ?f ?l) with (f <$> l) in Ha, Hb. rewrite list_lookup_fmap in Ha, Hb.
      destruct (ins !! b) as [t|] eqn:E; [|discriminate]. injection Hb as <-.
      destruct (all_outs sos !! a) as [o|] eqn:E'; [|discriminate]. injection Ha as <-. symmetry. apply table_sym; assumption.
    - intros a la b Ha Hb. change (map ?f ?l) with (f <$> l) in Ha. rewrite list_lookup_fmap in Ha.
      destruct (all_outs sos !! a) as [t|] eqn:E; [|discriminate]. injection Ha as <-. rewrite HL. eapply out_ranks; eauto.
    - intros a la b Ha Hb. change (map ?f ?l) with (f <$> l) in Ha. rewrite list_lookup_fmap in Ha.
      destruct (ins !! a) as [t|] eqn:E; [|discriminate]. injection Ha as <-. rewrite HL. eapply in_ranks; eauto.
    - intros a p la Hp Ha. change (map ?f ?l) with (f <$> l) in Ha. rewrite list_lookup_fmap in Ha.
      destruct (HP _ _ Hp) as (c & sh & out & t & b & ie & cx & D & ->).
      rewrite (d_out _ _ _ _ _ _ _ _ D) in Ha. injection Ha as <-. eapply exp_skeys; eauto.
    - intros a p la Hp Ha. change (map ?f ?l) with (f <$> l) in Ha. rewrite list_lookup_fmap in Ha.
      destruct (HP _ _ Hp) as (c & sh & out & t & b & ie & cx & D & ->).
      rewrite (d_in _ _ _ _ _ _ _ _ D) in Ha. injection Ha as <-. eapply exp_rkeys; eauto.
  Qed.

  Lemma pair_lookup_len {A B} (l : list (A * list B)) k q ids :
    l !! k = Some (q, ids) -> l.*2 !! k = Some ids.
  Proof. intros H. rewrite list_lookup_fmap, H. reflexivity. Qed.

  Lemma import_main (orders : nat -> list (nat * nat)) :
    (forall r ie, ies !! r = Some ie -> orders r ≡ₚ work nv (length (getOwnedInds (ie_ctx ie)))) ->
    exists progs, length progs = P
      /\ (forall r ie, ies !! r = Some ie -> exists p, progs !! r = Some p /\ import_post (orders r) ie = Ok p)
      /\ exists N, forall k n, nsteps net_step k (net_init progs (map b_shared bufs)) n ->
        k <= N /\ n_err n = false /\
        ((exists n', net_step n n') \/
         (net_done n /\ forall b bb sh m, bufs !! b = Some bb -> shareds !! b = Some sh -> n_mem n !! b = Some m ->
            length m = length (b_shared bb)
            /\ (forall v g a ba, v < nv -> g ∈ sh -> owns counts a g -> bufs !! a = Some ba ->
                  exists x, m !! (v * b_sstride bb + entry_of sh g) = Some x
                    /\ b_owned ba !! (v * b_ostride ba + (g - first_owned counts a)) = Some x)
            /\ (forall p, (forall v g, v < nv -> g ∈ sh -> p <> v * b_sstride bb + entry_of sh g) ->
                  m !! p = b_shared bb !! p))).
  Proof.
    intros Hord.
    destruct (list_choice (fun r p => exists buf c sh out t b ie cx, rank_data r c sh out t b ie cx /\ p = imp_prog b cx buf
       /\ import_post (orders r) ie = Ok p /\ nv * length (getOwnedInds cx) <= length buf
       /\ forall v i j, v < nv -> getOwnedInds cx !! i = Some j ->
            buf !! (v * length (getOwnedInds cx) + i) = b_owned b !! (v * b_ostride b + j)) P) as (progs & HL & HP).
    { intros r Hr. destruct (rank_data_ex r Hr) as (c & sh & out & t & b & ie & cx & D).
      pose proof (d_ready _ _ _ _ _ _ _ _ D) as R.
      destruct (import_post_ok _ _ _ _ _ _ _ _ R (orders r)) as (buf & E & Hb & HI).
      - pose proof (Hord _ _ (d_ie _ _ _ _ _ _ _ _ D)) as H. rewrite (rd_ctx _ _ _ _ _ _ _ _ R) in H. exact H.
      - eapply shared_nonempty; eauto.
      - exists (imp_prog b cx buf), buf, c, sh, out, t, b, ie, cx. auto 10. }
    exists progs. split; [exact HL|]. split.
    { intros r ie Hie. pose proof (lookup_lt_Some _ _ _ Hie) as Hr. rewrite Lies, <- HL in Hr.
      destruct (lookup_lt_is_Some_2 _ _ Hr) as [p Hp]. exists p. split; [exact Hp|].
      destruct (HP _ _ Hp) as (buf & c & sh & out & t & b & ie' & cx & D & _ & E & _).
      pose proof (d_ie _ _ _ _ _ _ _ _ D). congruence. }
    assert (HK := import_keys progs HL). destruct HK as [K1 K2].
    { intros r p Hp. destruct (HP _ _ Hp) as (buf & c & sh & out & t & b & ie' & cx & D & -> & _). eauto 12. }
    assert (SI : forall s, s ∈ sends_of progs -> exists r c sh out t b ie cx v k q ids,
       rank_data r c sh out t b ie cx /\ v < nv /\ t !! k = Some (q, ids) /\ skey s = (r, q, makeTag id v)
       /\ length (s_data s) = length ids
       /\ forall i g, ids !! i = Some g -> s_data s !! i = b_owned b !! (v * b_ostride b + (g - first_owned counts r))).
    { intros s Hs. unfold sends_of in Hs. apply elem_of_concat_imap in Hs. destruct Hs as (r & p & Hp & Hs).
      destruct (HP _ _ Hp) as (buf & c & sh & out & t & b & ie & cx & D & -> & _ & Hb & HI).
      eapply imp_send_inv in Hs; [|eauto]. destruct Hs as (v & k & q & ids & Hv & Hk & ->).
      exists r, c, sh, out, t, b, ie, cx, v, k, q, ids. cbn [s_data].
      split; [exact D|]. split; [exact Hv|]. split; [exact Hk|]. split; [reflexivity|]. split.
      - rewrite take_length, drop_length.
        pose proof (concat_pos_bound _ _ _ (pair_lookup_len _ _ _ _ Hk)) as B. rewrite concat_length in B.
        rewrite <- (oi_len _ _ _ _ _ _ _ _ D) in B. nia.
      - intros i g Hg. rewrite sub_lookup by (eapply lookup_lt_Some; eauto).
        rewrite <- Nat.add_assoc. apply HI; [exact Hv|]. eapply oi_row_pos; eauto. }
    assert (RI : forall x, x ∈ recvs_of progs <-> exists r c sh out t b ie cx v k q ids,
       rank_data r c sh out t b ie cx /\ v < nv /\ out !! k = Some (q, ids)
       /\ x = {| r_dst := r; r_src := q; r_tag := makeTag id v;
                  r_off := v * b_sstride b + sum (take k (map length out.*2)); r_len := length ids |}).
    { intros x. unfold recvs_of. rewrite elem_of_concat_imap. split.
      - intros (r & p & Hp & Hs). destruct (HP _ _ Hp) as (buf & c & sh & out & t & b & ie & cx & D & -> & _).
        eapply imp_recv_inv in Hs; [|eauto]. destruct Hs as (v & k & q & ids & Hv & Hk & ->).
        exists r, c, sh, out, t, b, ie, cx, v, k, q, ids. auto.
      - intros (r & c & sh & out & t & b & ie & cx & v & k & q & ids & D & Hv & Hk & ->).
        assert (Hr : r < length progs) by (rewrite HL; eapply lookup_lt_Some, (d_c _ _ _ _ _ _ _ _ D)).
        destruct (lookup_lt_is_Some_2 _ _ Hr) as [p Hp]. exists r, p. split; [exact Hp|].
        destruct (HP _ _ Hp) as (buf & c' & sh' & out' & t' & b' & ie' & cx' & D' & -> & _).
        destruct (rank_data_fun _ _ _ _ _ _ _ _ _ _ _ _ _ _ _ D D') as (-> & -> & -> & -> & -> & -> & ->).
        eapply imp_recv_inv; [exact D|]. eauto 10. }
    assert (RB : forall r c sh out t b ie cx v k q ids, rank_data r c sh out t b ie cx -> v < nv -> out !! k = Some (q, ids) ->
       ids <> [] /\ sum (take k (map length out.*2)) + length ids <= b_sstride b
       /\ v * b_sstride b + sum (take k (map length out.*2)) + length ids <= length (b_shared b)).
    { intros r c sh out t b ie cx v k q ids D Hv Hk.
      assert (Hin : (q, sum (take k (map length out.*2)), length ids) ∈ cx_shared cx).
      { apply (elem_of_list_lookup_2 _ k). rewrite (d_cx _ _ _ _ _ _ _ _ D). apply shared_lookup. eauto. }
      destruct (out_row _ _ _ _ _ _ _ _ D q ids ltac:(eapply elem_of_list_lookup_2; eauto)) as [Hne _].
      split; [exact Hne|].
      apply (rd_ssz _ _ _ _ _ _ _ _ (d_ready _ _ _ _ _ _ _ _ D) v q _ _ Hv Hin). destruct ids; [contradiction|cbn; lia]. }
    assert (SZ : forall s x, s ∈ sends_of progs -> x ∈ recvs_of progs -> skey s = rkey x -> 
       exists r b q bq sh v k out ids c t ie cx c' sh' out' t' ie' cx',
         rank_data r c sh out t b ie cx /\ rank_data q c' sh' out' t' bq ie' cx' /\ v < nv
         /\ out !! k = Some (q, ids) /\ length (s_data s) = length ids
         /\ x = {| r_dst := r; r_src := q; r_tag := makeTag id v;
                  r_off := v * b_sstride b + sum (take k (map length out.*2)); r_len := length ids |}
         /\ forall i g, ids !! i = Some g -> s_data s !! i = b_owned bq !! (v * b_ostride bq + (g - first_owned counts q))).
    { intros s x Hs Hx Hkey. apply RI in Hx.
      destruct Hx as (r & c & sh & out & t & b & ie & cx & v & k & q & ids & D & Hv & Hk & ->).
      destruct (SI _ Hs) as (r' & c' & sh' & out' & t' & b' & ie' & cx' & v' & k' & q' & ids' & D' & Hv' & Hk' & Es & Hl & Hd).
      rewrite Es in Hkey. cbn in Hkey. injection Hkey. intros Et -> ->. apply tag_inj in Et; [|lia..]. destruct Et as [-> _].
      assert (ids' = ids).
      { apply elem_of_list_lookup_2 in Hk'. apply (Hins _ _ (d_in _ _ _ _ _ _ _ _ D')) in Hk'. destruct Hk' as (o & Ho & Hin).
        assert (o = out) by (pose proof (d_out _ _ _ _ _ _ _ _ D); congruence). subst o.
        eapply keys_unique; [apply (out_ok _ _ _ _ _ _ _ _ D)|exact Hin|eapply elem_of_list_lookup_2; eauto]. }
      subst ids'. exists r, b, q, b', sh, v, k, out, ids, c, t, ie, cx, c', sh', out', t', ie', cx'. auto 10. }
    assert (M : matched progs (map b_shared bufs)).
    { split.
      - exact K1.
      - exact K2.
      - intros s x Hs Hx Hkey. destruct (SZ _ _ Hs Hx Hkey) as
          (r & b & q & bq & sh & v & k & out & ids & c & t & ie & cx & c' & sh' & out' & t' & ie' & cx' & D & D' & Hv & Hk & Hl & -> & _).
        exact Hl.
      - intros x Hx. apply RI in Hx.
        destruct Hx as (r & c & sh & out & t & b & ie & cx & v & k & q & ids & D & Hv & Hk & ->). cbn.
        exists (b_shared b). split.
        + change (map b_shared bufs) with (b_shared <$> bufs). rewrite list_lookup_fmap, (d_b _ _ _ _ _ _ _ _ D). reflexivity.
        + apply (RB _ _ _ _ _ _ _ _ _ _ _ _ D Hv Hk).
      - intros x x' Hx Hx' Ed Ek. apply RI in Hx, Hx'.
        destruct Hx as (r & c & sh & out & t & b & ie & cx & v & k & q & ids & D & Hv & Hk & ->).
        destruct Hx' as (r' & c' & sh' & out' & t' & b' & ie' & cx' & v' & k' & q' & ids' & D' & Hv' & Hk' & ->).
        cbn in Ed, Ek |- *. subst r'.
        destruct (rank_data_fun _ _ _ _ _ _ _ _ _ _ _ _ _ _ _ D D') as (-> & -> & -> & -> & -> & -> & ->).
        destruct (RB _ _ _ _ _ _ _ _ _ _ _ _ D Hv Hk) as (_ & B1 & _).
        destruct (RB _ _ _ _ _ _ _ _ _ _ _ _ D Hv' Hk') as (_ & B2 & _).
        destruct (lt_eq_lt_dec v v') as [[L|E]|L]; [left; nia| |right; nia]. subst v'.
        destruct (lt_eq_lt_dec k k') as [[L|E]|L].
        + left. pose proof (concat_pos_mono _ _ _ _ (pair_lookup_len _ _ _ _ Hk) L). lia.
        + subst k'. exfalso. apply Ek. rewrite Hk in Hk'. injection Hk' as -> ->. reflexivity.
        + right. pose proof (concat_pos_mono _ _ _ _ (pair_lookup_len _ _ _ _ Hk') L). lia. }
    destruct (transport _ _ M) as [N HN]. exists N. intros kk n Hs. destruct (HN _ _ Hs) as (H1 & H2 & H3).
    split; [exact H1|]. split; [exact H2|]. destruct H3 as [H3|(H3 & H4 & H5 & H6)]; [left; exact H3|right].
    split; [exact H3|]. intros r bb sh m Hbb Hsh Hm.
    assert (Hr : r < P) by (rewrite <- Lbufs; eapply lookup_lt_Some; eauto).
    destruct (rank_data_ex r Hr) as (c & sh' & out & t & b' & ie & cx & D).
    assert (sh' = sh) by (pose proof (d_sh _ _ _ _ _ _ _ _ D); congruence).
    assert (b' = bb) by (pose proof (d_b _ _ _ _ _ _ _ _ D); congruence). subst sh' b'.
    assert (Cm : forall p, cell (n_mem n) r p = m !! p) by (intros p; unfold cell; rewrite Hm; reflexivity).
    assert (Co : forall p, cell (map b_shared bufs) r p = b_shared bb !! p).
    { intros p. unfold cell. change (map b_shared bufs) with (b_shared <$> bufs). rewrite list_lookup_fmap, Hbb. reflexivity. }
    split; [|split].
    - assert (E : map length (n_mem n) !! r = map length (map b_shared bufs) !! r) by (rewrite H4; reflexivity).
      change (map length (n_mem n)) with (length <$> n_mem n) in E.
      change (map length (map b_shared bufs)) with (length <$> (b_shared <$> bufs)) in E.
      rewrite !list_lookup_fmap, Hm, Hbb in E. injection E as E. exact E.
    - intros v g a ba Hv Hg Ho Hba.
      assert (Hg' : g ∈ sort sh) by (apply sort_elem; exact Hg).
      apply elem_of_list_lookup_1 in Hg'. destruct Hg' as [j Hj].
      rewrite <- (d_cat _ _ _ _ _ _ _ _ D) in Hj. apply concat_lookup_inv in Hj.
      destruct Hj as (k & ids & i & Hk & Hi & ->). rewrite list_lookup_fmap in Hk.
      destruct (out !! k) as [[q ids']|] eqn:Eo; [|discriminate]. injection Hk as ->.
      assert (q = a).
      { destruct (out_row _ _ _ _ _ _ _ _ D q ids ltac:(eapply elem_of_list_lookup_2; eauto)) as [_ Hrow].
        apply (owns_unique counts q a g); [|exact Ho]. apply Hrow. eapply elem_of_list_lookup_2; eauto. }
      subst q. destruct (shared_pos _ _ _ _ _ _ _ _ D _ _ _ _ _ Eo Hi) as [Ep _].
      set (x := {| r_dst := r; r_src := a; r_tag := makeTag id v;
                  r_off := v * b_sstride bb + sum (take k (map length out.*2)); r_len := length ids |}).
      assert (Hx : x ∈ recvs_of progs) by (apply RI; exists r, c, sh, out, t, bb, ie, cx, v, k, a, ids; auto).
      assert (Hkx : rkey x ∈ map skey (sends_of progs)) by (rewrite K2; apply elem_of_list_fmap; eauto).
      apply elem_of_list_fmap in Hkx. destruct Hkx as (s & Ek & Hs').
      pose proof (H5 s x i Hs' Hx (eq_sym Ek) (lookup_lt_Some _ _ _ Hi)) as Hc.
      destruct (SZ _ _ Hs' Hx (eq_sym Ek)) as
          (r1 & b1 & q1 & bq & sh1 & v1 & k1 & out1 & ids1 & c1 & t1 & ie1 & cx1 & c' & sh' & out' & t' & ie' & cx' & D1 & D' & Hv1 & Hk1 & Hl & Ex & Hd).
      unfold x in Ex. injection Ex. intros El Eoff Et -> ->. apply tag_inj in Et; [|lia..]. destruct Et as [-> _].
      destruct (rank_data_fun _ _ _ _ _ _ _ _ _ _ _ _ _ _ _ D D1) as (-> & -> & -> & -> & -> & -> & ->).
      assert (ids1 = ids) as ->.
      { eapply keys_unique; [apply (out_ok _ _ _ _ _ _ _ _ D)|eapply elem_of_list_lookup_2; eauto..]. }
      assert (bq = ba) as -> by (pose proof (d_b _ _ _ _ _ _ _ _ D'); congruence).
      cbn [r_dst r_off x] in Hc. rewrite Cm in Hc.
      rewrite <- Ep, Nat.add_assoc. rewrite Hc.
      destruct (lookup_lt_is_Some_2 (s_data s) i) as [y Hy]; [rewrite Hl; eapply lookup_lt_Some; eauto|].
      exists y. split; [exact Hy|]. rewrite <- (Hd _ _ Hi). exact Hy.
    - intros p Hp. rewrite <- Cm, <- Co. apply H6. intros x Hx [Ed Hreg]. apply RI in Hx.
      destruct Hx as (r' & c' & sh' & out' & t' & b' & ie' & cx' & v & k & q & ids & D' & Hv & Hk & ->). cbn in Ed, Hreg. subst r'.
      destruct (rank_data_fun _ _ _ _ _ _ _ _ _ _ _ _ _ _ _ D D') as (-> & -> & -> & -> & -> & -> & ->).
      destruct (lookup_lt_is_Some_2 ids (p - (v * b_sstride bb + sum (take k (map length out.*2))))) as [g Hg]; [lia|].
      destruct (shared_pos _ _ _ _ _ _ _ _ D _ _ _ _ _ Hk Hg) as [Ep Hgs].
      apply (Hp v g Hv Hgs). lia.
  Qed.

  Lemma omap_perm {X Y} (f : X -> option Y) l l' : l ≡ₚ l' -> omap f l ≡ₚ omap f l'.
  Proof.
    induction 1 as [|x l l' H IH|x y l|l1 l2 l3 H1 IH1 H2 IH2]; cbn.
    - reflexivity.
    - destruct (f x); [constructor|]; exact IH.
    - destruct (f x), (f y); try reflexivity. constructor.
    - etransitivity; eassumption.
  Qed.
  Lemma omap_filter {X Y} (f : X -> option Y) (q : X -> bool) l :
    (forall x, x ∈ l -> q x = false -> f x = None) -> omap f l = omap f (List.filter q l).
  Proof.
    induction l as [|x l IH]; intros H; [reflexivity|]. cbn. destruct (q x) eqn:E; cbn.
    - rewrite IH; [reflexivity|]. intros y Hy. apply H. right. exact Hy.
    - rewrite (H x ltac:(left) E). apply IH. intros y Hy. apply H. right. exact Hy.
  Qed.
  Lemma omap_map {X Y Z} (f : Y -> option Z) (g : X -> Y) l : omap f (map g l) = omap (fun x => f (g x)) l.
  Proof. induction l as [|x l IH]; [reflexivity|]. cbn. destruct (f (g x)); [f_equal|]; exact IH. Qed.
  Lemma omap_ext_in {X Y} (f g : X -> option Y) (l : list X) : (forall x, x ∈ l -> f x = g x) -> omap f l = omap g l.
  Proof.
    induction l as [|x l IH]; intros H; [reflexivity|]. cbn. rewrite (H x ltac:(left)).
    destruct (g x); [f_equal|]; apply IH; intros z Hz; apply H; right; exact Hz.
  Qed.

  (** The rank an entry of the pack buffer comes from. *)
  Definition row_rank (t : nbr_info) (i : nat) : nat :=
    default 0 (concat (map (fun e => replicate (length e.2) e.1) t) !! i).
  Lemma row_rank_spec t k q ids i :
    t !! k = Some (q, ids) -> i < length ids -> row_rank t (sum (take k (map length t.*2)) + i) = q.
  Proof.
    intros Hk Hi. unfold row_rank.
    assert (E : map length (map (fun e : nat * list nat => replicate (length e.2) e.1) t) = map length t.*2).
    { change (t.*2) with (map snd t). rewrite !map_map. apply map_ext. intros. apply replicate_length. }
    rewrite <- E. erewrite (concat_lookup _ k (replicate (length ids) q)); [reflexivity| |].
    - change (map ?f t) with (f <$> t). rewrite list_lookup_fmap, Hk. reflexivity.
    - apply lookup_replicate. auto.
  Qed.

  Lemma contrib_perm r c sh out t b ie cx order (pack : list V) v g :
    rank_data r c sh out t b ie cx ->
    order ≡ₚ work nv (length (getOwnedInds cx)) ->
    v < nv -> owns counts r g -> g - first_owned counts r < b_ostride b ->
    (forall k q ids i g' shq bq, t !! k = Some (q, ids) -> ids !! i = Some g' ->
       shareds !! q = Some shq -> bufs !! q = Some bq ->
       pack !! (v * length (getOwnedInds cx) + (sum (take k (map length t.*2)) + i))
       = b_shared bq !! (v * b_sstride bq + entry_of shq g')) ->
    omap (fun vi => pack !! (length (getOwnedInds cx) * vi.1 + vi.2))
      (List.filter (targets cx (b_ostride b) (v * b_ostride b + (g - first_owned counts r))) order)
    ≡ₚ contributions shareds bufs v g.
  Proof.
    intros D Hord Hv Ho Hst Hpk.
    set (oi := getOwnedInds cx) in *. set (fo := first_owned counts r) in *.
    set (L := List.filter _ order).
    set (h := fun q => sh ← shareds !! q; bb ← bufs !! q;
                 if decide (g ∈ sh) then b_shared bb !! (v * b_sstride bb + entry_of sh g) else None).
    assert (Hgo : fo <= g) by (destruct Ho as (c' & _ & H); unfold fo; lia).
    destruct (Hins _ _ (d_in _ _ _ _ _ _ _ _ D)) as [(T1 & T2 & T3) _].
    assert (LE : forall v' i, (v', i) ∈ L -> v' = v /\ exists k q ids x, t !! k = Some (q, ids) /\ ids !! x = Some g
       /\ i = sum (take k (map length t.*2)) + x).
    { intros v' i H. unfold L in H. apply elem_of_list_In, filter_In in H. destruct H as [H Ht].
      apply elem_of_list_In in H. rewrite Hord, work_elem in H. destruct H as [Hv' Hi].
      unfold targets in Ht. cbn [fst snd] in Ht. fold oi in Ht. destruct (oi !! i) as [j|] eqn:Ej; [|discriminate].
      apply Nat.eqb_eq in Ht. pose proof (d_ready _ _ _ _ _ _ _ _ D) as R.
      destruct (rd_osz _ _ _ _ _ _ _ _ R v' j Hv' ltac:(eapply elem_of_list_lookup_2; exact Ej)) as [Hj _].
      destruct (oi_inv _ _ _ _ _ _ _ _ D _ _ Ej) as (k & q & ids & x & g' & Hk & Hx & -> & ->).
      assert (Hg' : owns counts r g').
      { destruct (in_row _ _ _ _ _ _ _ _ D q ids ltac:(eapply elem_of_list_lookup_2; eauto)) as (_ & _ & H).
        apply H. eapply elem_of_list_lookup_2; eauto. }
      assert (v' = v) by nia. subst v'. split; [reflexivity|].
      assert (g' = g) by (destruct Hg' as (c1 & _ & Hb1); fold fo in Hb1; lia). subst g'. exists k, q, ids, x. auto. }
    assert (LI : forall k q ids x, t !! k = Some (q, ids) -> ids !! x = Some g ->
       (v, sum (take k (map length t.*2)) + x) ∈ L).
    { intros k q ids x Hk Hx. unfold L. apply elem_of_list_In, filter_In.
      pose proof (oi_row_pos _ _ _ _ _ _ _ _ D _ _ _ _ _ Hk Hx) as E. fold oi fo in E. split.
      - apply elem_of_list_In. rewrite Hord, work_elem. split; [exact Hv|]. eapply lookup_lt_Some; eauto.
      - unfold targets. cbn [fst snd]. fold oi. rewrite E. apply Nat.eqb_eq. reflexivity. }
    assert (LN : NoDup L).
    { unfold L. apply NoDup_ListNoDup, List.NoDup_filter, NoDup_ListNoDup. rewrite Hord. unfold work.
      apply prod_nodup; apply NoDup_ListNoDup, seq_NoDup. }
    assert (HV : omap (fun vi => pack !! (length oi * vi.1 + vi.2)) L = omap h (map (fun vi => row_rank t vi.2) L)).
    { rewrite omap_map. apply omap_ext_in. intros [v' i] Hin. destruct (LE _ _ Hin) as (-> & k & q & ids & x & Hk & Hx & ->).
      cbn [fst snd]. rewrite (row_rank_spec _ _ _ _ _ Hk (lookup_lt_Some _ _ _ Hx)).
      destruct (T2 q ids ltac:(eapply elem_of_list_lookup_2; eauto)) as (_ & _ & shq & Hshq & Hids).
      assert (Hq : q < length bufs) by (apply lookup_lt_Some in Hshq; lia).
      destruct (lookup_lt_is_Some_2 _ _ Hq) as [bq Hbq]. unfold h. rewrite Hshq, Hbq. cbn [mbind option_bind].
      rewrite decide_True by (apply Hids; eapply elem_of_list_lookup_2; eauto).
      rewrite (Nat.mul_comm (length oi)). eapply Hpk; eauto. }
    rewrite HV. unfold contributions. fold h.
    rewrite (omap_filter h (fun q => match shareds !! q with Some shq => bool_decide (g ∈ shq) | None => false end) (seq 0 (length shareds))).
    2:{ intros q _ E. unfold h. destruct (shareds !! q) as [shq|]; [|reflexivity]. cbn [mbind option_bind].
        apply bool_decide_eq_false in E. destruct (bufs !! q); cbn [mbind option_bind]; [|reflexivity].
        rewrite decide_False by exact E. reflexivity. }
    apply omap_perm. apply NoDup_Permutation.
    - apply (NoDup_fmap_2_strong (fun vi => row_rank t vi.2)); [|exact LN].
      intros [v1 i1] [v2 i2] H1 H2 E. cbn [snd] in E.
      destruct (LE _ _ H1) as (-> & k & q & ids & x & Hk & Hx & ->).
      destruct (LE _ _ H2) as (-> & k' & q' & ids' & x' & Hk' & Hx' & ->).
      rewrite (row_rank_spec _ _ _ _ _ Hk (lookup_lt_Some _ _ _ Hx)) in E.
      rewrite (row_rank_spec _ _ _ _ _ Hk' (lookup_lt_Some _ _ _ Hx')) in E. subst q'.
      assert (k = k') as <-.
      { eapply (NoDup_lookup t.*1 k k' q); [apply strict_nodup, T1|..]; rewrite list_lookup_fmap; [rewrite Hk|rewrite Hk']; reflexivity. }
      rewrite Hk in Hk'. injection Hk' as <-.
      destruct (T2 q ids ltac:(eapply elem_of_list_lookup_2; eauto)) as (Hsrt & _).
      assert (x = x') as <- by (eapply NoDup_lookup; [apply strict_nodup, Hsrt|eauto..]). reflexivity.
    - apply NoDup_ListNoDup, List.NoDup_filter, seq_NoDup.
    - intros q. rewrite elem_of_list_fmap, elem_of_list_In, filter_In, in_seq. split.
      + intros ([v' i] & -> & Hin). destruct (LE _ _ Hin) as (-> & k & q & ids & x & Hk & Hx & ->).
        cbn [snd]. rewrite (row_rank_spec _ _ _ _ _ Hk (lookup_lt_Some _ _ _ Hx)).
        destruct (T2 q ids ltac:(eapply elem_of_list_lookup_2; eauto)) as (_ & _ & shq & Hshq & Hids).
        rewrite Hshq. pose proof (lookup_lt_Some _ _ _ Hshq). split; [lia|].
        apply bool_decide_eq_true, Hids. eapply elem_of_list_lookup_2; eauto.
      + intros [_ Hq]. destruct (shareds !! q) as [shq|] eqn:Eq; [|discriminate]. apply bool_decide_eq_true in Hq.
        destruct (T3 _ _ _ Eq Ho Hq) as (ids & Hin & Hg). apply elem_of_list_lookup_1 in Hin, Hg.
        destruct Hin as [k Hk]. destruct Hg as [x Hx].
        exists (v, sum (take k (map length t.*2)) + x). cbn [snd].
        rewrite (row_rank_spec _ _ _ _ _ Hk (lookup_lt_Some _ _ _ Hx)). split; [reflexivity|]. eapply LI; eauto.
  Qed.

  Lemma export_main :
    (forall r c b, counts !! r = Some c -> bufs !! r = Some b -> c <= b_ostride b) ->
    exists progs, length progs = P
      /\ (forall r ie, ies !! r = Some ie -> exists p, progs !! r = Some p /\ export_post ie = Ok p)
      /\ exists N, forall k n, nsteps net_step k (net_init progs (map ie_pack ies)) n ->
        k <= N /\ n_err n = false /\
        ((exists n', net_step n n') \/
         (net_done n /\ forall a ba ie pack order combine,
            bufs !! a = Some ba -> ies !! a = Some ie -> n_mem n !! a = Some pack ->
            order ≡ₚ work nv (length (getOwnedInds (ie_ctx ie))) ->
            exists owned', unpack combine order pack ie = Ok owned'
            /\ length owned' = length (b_owned ba)
            /\ (forall v g old, v < nv -> owns counts a g ->
                  b_owned ba !! (v * b_ostride ba + (g - first_owned counts a)) = Some old ->
                  exists contribs, contribs ≡ₚ contributions shareds bufs v g
                    /\ owned' !! (v * b_ostride ba + (g - first_owned counts a)) = Some (foldl combine old contribs))
            /\ (forall p, (forall v g b sh, v < nv -> owns counts a g -> shareds !! b = Some sh -> g ∈ sh ->
                      p <> v * b_ostride ba + (g - first_owned counts a)) ->
                  owned' !! p = b_owned ba !! p))).
  Proof.
    intros Hstr.
    destruct (list_choice (fun r p => exists c sh out t b ie cx, rank_data r c sh out t b ie cx /\ p = exp_prog b cx
       /\ export_post ie = Ok p) P) as (progs & HL & HP).
    { intros r Hr. destruct (rank_data_ex r Hr) as (c & sh & out & t & b & ie & cx & D).
      pose proof (d_ready _ _ _ _ _ _ _ _ D) as R.
      exists (exp_prog b cx), c, sh, out, t, b, ie, cx. split; [exact D|]. split; [reflexivity|].
      apply (export_post_ok _ _ _ _ _ _ _ _ R). eapply shared_nonempty; eauto. }
    exists progs. split; [exact HL|]. split.
    { intros r ie Hie. pose proof (lookup_lt_Some _ _ _ Hie) as Hr. rewrite Lies, <- HL in Hr.
      destruct (lookup_lt_is_Some_2 _ _ Hr) as [p Hp]. exists p. split; [exact Hp|].
      destruct (HP _ _ Hp) as (c & sh & out & t & b & ie' & cx & D & _ & E).
      pose proof (d_ie _ _ _ _ _ _ _ _ D). congruence. }
    assert (HK := export_keys progs HL). destruct HK as [K1 K2].
    { intros r p Hp. destruct (HP _ _ Hp) as (c & sh & out & t & b & ie' & cx & D & -> & _). eauto 12. }
    assert (RB : forall r c sh out t b ie cx v k q ids, rank_data r c sh out t b ie cx -> v < nv -> out !! k = Some (q, ids) ->
       v * b_sstride b + sum (take k (map length out.*2)) + length ids <= length (b_shared b)).
    { intros r c sh out t b ie cx v k q ids D Hv Hk.
      assert (Hin : (q, sum (take k (map length out.*2)), length ids) ∈ cx_shared cx).
      { apply (elem_of_list_lookup_2 _ k). rewrite (d_cx _ _ _ _ _ _ _ _ D). apply shared_lookup. eauto. }
      destruct (out_row _ _ _ _ _ _ _ _ D q ids ltac:(eapply elem_of_list_lookup_2; eauto)) as [Hne _].
      apply (rd_ssz _ _ _ _ _ _ _ _ (d_ready _ _ _ _ _ _ _ _ D) v q _ _ Hv Hin). destruct ids; [contradiction|cbn; lia]. }
    assert (SI : forall s, s ∈ sends_of progs -> exists r c sh out t b ie cx v k q ids,
       rank_data r c sh out t b ie cx /\ v < nv /\ out !! k = Some (q, ids) /\ skey s = (r, q, makeTag id v)
       /\ length (s_data s) = length ids
       /\ forall i g, ids !! i = Some g -> s_data s !! i = b_shared b !! (v * b_sstride b + entry_of sh g)).
    { intros s Hs. unfold sends_of in Hs. apply elem_of_concat_imap in Hs. destruct Hs as (r & p & Hp & Hs).
      destruct (HP _ _ Hp) as (c & sh & out & t & b & ie & cx & D & -> & _).
      eapply exp_send_inv in Hs; [|eauto]. destruct Hs as (v & k & q & ids & Hv & Hk & ->).
      exists r, c, sh, out, t, b, ie, cx, v, k, q, ids. cbn [s_data].
      split; [exact D|]. split; [exact Hv|]. split; [exact Hk|]. split; [reflexivity|]. split.
      - rewrite take_length, drop_length. pose proof (RB _ _ _ _ _ _ _ _ _ _ _ _ D Hv Hk). lia.
      - intros i g Hg. rewrite sub_lookup by (eapply lookup_lt_Some; eauto).
        destruct (shared_pos _ _ _ _ _ _ _ _ D _ _ _ _ _ Hk Hg) as [<- _]. rewrite Nat.add_assoc. reflexivity. }
    assert (RI : forall x, x ∈ recvs_of progs <-> exists r c sh out t b ie cx v k q ids,
       rank_data r c sh out t b ie cx /\ v < nv /\ t !! k = Some (q, ids)
       /\ x = {| r_dst := r; r_src := q; r_tag := makeTag id v;
                  r_off := v * length (getOwnedInds cx) + sum (take k (map length t.*2)); r_len := length ids |}).
    { intros x. unfold recvs_of. rewrite elem_of_concat_imap. split.
      - intros (r & p & Hp & Hs). destruct (HP _ _ Hp) as (c & sh & out & t & b & ie & cx & D & -> & _).
        eapply exp_recv_inv in Hs; [|eauto]. destruct Hs as (v & k & q & ids & Hv & Hk & ->).
        exists r, c, sh, out, t, b, ie, cx, v, k, q, ids. auto.
      - intros (r & c & sh & out & t & b & ie & cx & v & k & q & ids & D & Hv & Hk & ->).
        assert (Hr : r < length progs) by (rewrite HL; eapply lookup_lt_Some, (d_c _ _ _ _ _ _ _ _ D)).
        destruct (lookup_lt_is_Some_2 _ _ Hr) as [p Hp]. exists r, p. split; [exact Hp|].
        destruct (HP _ _ Hp) as (c' & sh' & out' & t' & b' & ie' & cx' & D' & -> & _).
        destruct (rank_data_fun _ _ _ _ _ _ _ _ _ _ _ _ _ _ _ D D') as (-> & -> & -> & -> & -> & -> & ->).
        eapply exp_recv_inv; [exact D|]. eauto 10. }
    assert (PB : forall r c sh out t b ie cx k q ids, rank_data r c sh out t b ie cx -> t !! k = Some (q, ids) ->
       sum (take k (map length t.*2)) + length ids <= length (getOwnedInds cx)).
    { intros r c sh out t b ie cx k q ids D Hk.
      pose proof (concat_pos_bound _ _ _ (pair_lookup_len _ _ _ _ Hk)) as B. rewrite concat_length in B.
      rewrite <- (oi_len _ _ _ _ _ _ _ _ D) in B. exact B. }
    assert (SZ : forall s x, s ∈ sends_of progs -> x ∈ recvs_of progs -> skey s = rkey x -> 
       exists r b q bq sh v k out ids c t ie cx c' sh' out' t' ie' cx',
         rank_data r c sh out t b ie cx /\ rank_data q c' sh' out' t' bq ie' cx' /\ v < nv
         /\ t !! k = Some (q, ids) /\ length (s_data s) = length ids
         /\ x = {| r_dst := r; r_src := q; r_tag := makeTag id v;
                  r_off := v * length (getOwnedInds cx) + sum (take k (map length t.*2)); r_len := length ids |}
         /\ forall i g, ids !! i = Some g -> s_data s !! i = b_shared bq !! (v * b_sstride bq + entry_of sh' g)).
    { intros s x Hs Hx Hkey. apply RI in Hx.
      destruct Hx as (r & c & sh & out & t & b & ie & cx & v & k & q & ids & D & Hv & Hk & ->).
      destruct (SI _ Hs) as (r' & c' & sh' & out' & t' & b' & ie' & cx' & v' & k' & q' & ids' & D' & Hv' & Hk' & Es & Hl & Hd).
      rewrite Es in Hkey. cbn in Hkey. injection Hkey. intros Et -> ->. apply tag_inj in Et; [|lia..]. destruct Et as [-> _].
      assert (ids' = ids).
      { apply elem_of_list_lookup_2 in Hk'.
        assert (Hin : (q, ids') ∈ t).
        { apply (Hins _ _ (d_in _ _ _ _ _ _ _ _ D)). exists out'. split; [apply (d_out _ _ _ _ _ _ _ _ D')|exact Hk']. }
        eapply keys_unique; [apply (in_nodup _ _ _ _ _ _ _ _ D)|exact Hin|eapply elem_of_list_lookup_2; eauto]. }
      subst ids'. exists r, b, q, b', sh, v, k, out, ids, c, t, ie, cx, c', sh', out', t', ie', cx'. auto 10. }
    assert (M : matched progs (map ie_pack ies)).
    { split.
      - exact K1.
      - exact K2.
      - intros s x Hs Hx Hkey. destruct (SZ _ _ Hs Hx Hkey) as
          (r & b & q & bq & sh & v & k & out & ids & c & t & ie & cx & c' & sh' & out' & t' & ie' & cx' & D & D' & Hv & Hk & Hl & -> & _).
        exact Hl.
      - intros x Hx. apply RI in Hx.
        destruct Hx as (r & c & sh & out & t & b & ie & cx & v & k & q & ids & D & Hv & Hk & ->). cbn [r_dst r_off r_len].
        exists (ie_pack ie). split.
        + change (map ie_pack ies) with (ie_pack <$> ies). rewrite list_lookup_fmap, (d_ie _ _ _ _ _ _ _ _ D). reflexivity.
        + pose proof (rd_pack _ _ _ _ _ _ _ _ (d_ready _ _ _ _ _ _ _ _ D)). pose proof (PB _ _ _ _ _ _ _ _ _ _ _ D Hk). nia.
      - intros x x' Hx Hx' Ed Ek. apply RI in Hx, Hx'.
        destruct Hx as (r & c & sh & out & t & b & ie & cx & v & k & q & ids & D & Hv & Hk & ->).
        destruct Hx' as (r' & c' & sh' & out' & t' & b' & ie' & cx' & v' & k' & q' & ids' & D' & Hv' & Hk' & ->).
        cbn [r_dst r_off r_len] in Ed, Ek |- *. subst r'.
        destruct (rank_data_fun _ _ _ _ _ _ _ _ _ _ _ _ _ _ _ D D') as (-> & -> & -> & -> & -> & -> & ->).
        pose proof (PB _ _ _ _ _ _ _ _ _ _ _ D Hk) as B1. pose proof (PB _ _ _ _ _ _ _ _ _ _ _ D Hk') as B2.
        destruct (lt_eq_lt_dec v v') as [[L|E]|L]; [left; nia| |right; nia]. subst v'.
        destruct (lt_eq_lt_dec k k') as [[L|E]|L].
        + left. pose proof (concat_pos_mono _ _ _ _ (pair_lookup_len _ _ _ _ Hk) L). lia.
        + subst k'. exfalso. apply Ek. rewrite Hk in Hk'. injection Hk' as -> ->. reflexivity.
        + right. pose proof (concat_pos_mono _ _ _ _ (pair_lookup_len _ _ _ _ Hk') L). lia. }
    destruct (transport _ _ M) as [N HN]. exists N. intros kk n Hs. destruct (HN _ _ Hs) as (H1 & H2 & H3).
    split; [exact H1|]. split; [exact H2|]. destruct H3 as [H3|(H3 & H4 & H5 & H6)]; [left; exact H3|right].
    split; [exact H3|]. intros r bb ie pack order combine Hbb Hie Hm Hord.
    assert (Hr : r < P) by (rewrite <- Lbufs; eapply lookup_lt_Some; eauto).
    destruct (rank_data_ex r Hr) as (c & sh & out & t & b' & ie' & cx & D).
    assert (ie' = ie) by (pose proof (d_ie _ _ _ _ _ _ _ _ D); congruence).
    assert (b' = bb) by (pose proof (d_b _ _ _ _ _ _ _ _ D); congruence). subst ie' b'.
    pose proof (d_ready _ _ _ _ _ _ _ _ D) as R.
    rewrite (rd_ctx _ _ _ _ _ _ _ _ R) in Hord.
    assert (Cm : forall p, cell (n_mem n) r p = pack !! p) by (intros p; unfold cell; rewrite Hm; reflexivity).
    assert (PK : forall v k q ids i g shq bq, v < nv -> t !! k = Some (q, ids) -> ids !! i = Some g ->
       shareds !! q = Some shq -> bufs !! q = Some bq ->
       pack !! (v * length (getOwnedInds cx) + (sum (take k (map length t.*2)) + i))
       = b_shared bq !! (v * b_sstride bq + entry_of shq g)
       /\ is_Some (pack !! (v * length (getOwnedInds cx) + (sum (take k (map length t.*2)) + i)))).
    { intros v k q ids i g shq bq Hv Hk Hi Hshq Hbq.
      set (x := {| r_dst := r; r_src := q; r_tag := makeTag id v;
                  r_off := v * length (getOwnedInds cx) + sum (take k (map length t.*2)); r_len := length ids |}).
      assert (Hx : x ∈ recvs_of progs) by (apply RI; exists r, c, sh, out, t, bb, ie, cx, v, k, q, ids; auto).
      assert (Hkx : rkey x ∈ map skey (sends_of progs)) by (rewrite K2; apply elem_of_list_fmap; eauto).
      apply elem_of_list_fmap in Hkx. destruct Hkx as (s & Ek & Hs').
      pose proof (H5 s x i Hs' Hx (eq_sym Ek) (lookup_lt_Some _ _ _ Hi)) as Hc.
      destruct (SZ _ _ Hs' Hx (eq_sym Ek)) as
          (r1 & b1 & q1 & bq' & sh1 & v1 & k1 & out1 & ids1 & c1 & t1 & ie1 & cx1 & c' & sh' & out' & t' & ie' & cx' & D1 & D' & Hv1 & Hk1 & Hl & Ex & Hd).
      unfold x in Ex. injection Ex. intros El Eoff Et -> ->. apply tag_inj in Et; [|lia..]. destruct Et as [-> _].
      destruct (rank_data_fun _ _ _ _ _ _ _ _ _ _ _ _ _ _ _ D D1) as (-> & -> & -> & -> & -> & -> & ->).
      assert (ids1 = ids) as ->.
      { eapply keys_unique; [apply (in_nodup _ _ _ _ _ _ _ _ D)|eapply elem_of_list_lookup_2; eauto..]. }
      assert (bq' = bq) as -> by (pose proof (d_b _ _ _ _ _ _ _ _ D'); congruence).
      assert (sh' = shq) as -> by (pose proof (d_sh _ _ _ _ _ _ _ _ D'); congruence).
      cbn [r_dst r_off x] in Hc. rewrite Cm in Hc. rewrite Nat.add_assoc, Hc. split; [apply Hd; exact Hi|].
      apply lookup_lt_is_Some_2. rewrite Hl. eapply lookup_lt_Some; eauto. }
    destruct (unpack_ok _ _ _ _ _ _ _ _ R combine order pack Hord) as (ob' & EU & HLo & HIo).
    { intros v i Hv Hi. destruct (lookup_lt_is_Some_2 _ _ Hi) as [j Hj].
      destruct (oi_inv _ _ _ _ _ _ _ _ D _ _ Hj) as (k & q & ids & x & g & Hk & Hx & -> & ->).
      assert (Hq : q < P). { eapply in_ranks; [apply (d_in _ _ _ _ _ _ _ _ D)|]. apply elem_of_list_fmap. exists (q, ids). split; [reflexivity|]. eapply elem_of_list_lookup_2; eauto. }
      destruct (lookup_lt_is_Some_2 shareds q ltac:(lia)) as [shq Hshq].
      destruct (lookup_lt_is_Some_2 bufs q ltac:(lia)) as [bq Hbq].
      rewrite (Nat.mul_comm (length _)). eapply PK; eauto. }
    exists ob'. split; [exact EU|]. split; [exact HLo|]. split.
    - intros v g old Hv Ho Hold. rewrite (HIo _ _ Hold). eexists. split; [|reflexivity].
      assert (Hst : g - first_owned counts r < b_ostride bb).
      { destruct Ho as (c' & Hc' & Hb'). pose proof (Hstr _ _ _ Hc' Hbb). lia. }
      eapply contrib_perm; eauto. intros k q ids i g' shq bq Hk Hi Hshq Hbq. eapply PK; eauto.
    - intros p Hp. destruct (b_owned bb !! p) as [old|] eqn:Eo.
      + rewrite (HIo _ _ Eo).
        assert (EF : List.filter (targets cx (b_ostride bb) p) order = []).
        { destruct (List.filter (targets cx (b_ostride bb) p) order) as [|[v i] l] eqn:EF; [reflexivity|exfalso].
          assert (Hin : In (v, i) (List.filter (targets cx (b_ostride bb) p) order)) by (rewrite EF; left; reflexivity).
          apply filter_In in Hin. destruct Hin as [Hin Ht]. apply elem_of_list_In in Hin. rewrite Hord, work_elem in Hin.
          unfold targets in Ht. cbn [fst snd] in Ht.
          destruct (getOwnedInds cx !! i) as [j|] eqn:Ej; [|discriminate]. apply Nat.eqb_eq in Ht.
          destruct (oi_inv _ _ _ _ _ _ _ _ D _ _ Ej) as (k & q & ids & x & g & Hk & Hx & -> & ->).
          destruct (Hins _ _ (d_in _ _ _ _ _ _ _ _ D)) as [(T1 & T2 & T3) _].
          destruct (T2 q ids ltac:(eapply elem_of_list_lookup_2; eauto)) as (_ & _ & shq & Hshq & Hids).
          assert (Hg : g ∈ ids) by (eapply elem_of_list_lookup_2; eauto). apply Hids in Hg.
          apply (Hp v g q shq ltac:(lia) (proj1 Hg) Hshq (proj2 Hg)). symmetry. exact Ht. }
        rewrite EF. reflexivity.
      + apply lookup_ge_None in Eo. apply lookup_ge_None. lia.
  Qed.
End world.

(** ** From the client's configuration to [ready] *)
Lemma owned_inds_lt counts shareds r c sh out t :
  counts !! r = Some c -> table_correct counts shareds r t ->
  forall j, j ∈ getOwnedInds (make_ctx {| so_begin := first_owned counts r; so_end := first_owned counts r + c; so_shared := sort sh |} out t) -> j < c.
Proof.
  intros Hc (_ & T & _) j Hj. unfold getOwnedInds in Hj. cbn [cx_owned make_ctx] in Hj. apply elem_of_concat in Hj.
  destruct Hj as (l & Hj & Hl). apply elem_of_list_fmap in Hl. destruct Hl as ([q l'] & -> & Hin).
  unfold flattenOwned in Hin. apply elem_of_list_fmap in Hin. destruct Hin as ([q' ids] & E & Hin). injection E as -> ->.
  cbn [snd] in Hj. apply elem_of_list_fmap in Hj. destruct Hj as (g & -> & Hg).
  destruct (T _ _ Hin) as (_ & _ & sh' & _ & Hids). apply Hids in Hg. destruct Hg as [(c' & Hc' & Hb) _].
  assert (c' = c) by congruence. subst c'. unfold getLocalIndex, isOwned. cbn [so_begin so_end].
  replace ((first_owned counts r <=? g) && (g <? first_owned counts r + c)) with true; [lia|].
  symmetry. apply andb_true_iff. split; [apply Nat.leb_le|apply Nat.ltb_lt]; lia.
Qed.
Lemma shared_bound so out t r off len :
  (r, off, len) ∈ cx_shared (make_ctx so out t) -> off + len <= getNumSharedInds (make_ctx so out t).
Proof.
  intros H. apply elem_of_list_lookup_1 in H. destruct H as [k H]. apply shared_lookup in H.
  destruct H as (ids & Hk & -> & ->). rewrite num_shared. apply concat_pos_bound. rewrite list_lookup_fmap, Hk. reflexivity.
Qed.

Section client.
  Context {V : Type} (counts : list nat) (shareds : list (list nat)) (sos : list ownership) (st : nx_state).
  Context (Hne : counts <> []).
  Context (Hlen : length counts = length shareds).
  Context (Hnd : Forall NoDup shareds).
  Context (Hrange : Forall (Forall (fun g => g < total counts)) shareds).
  Context (Hmk : make_all counts shareds = Ok sos).
  Context (Hst : rtc nx_step (nx_init (all_outs sos)) st).
  Context (Hdone : forall r x, nx_ranks st !! r = Some x -> nx_done x).
  Context (nv : nat) (id : N) (bufs : list (buffers V)) (ies : list (impexp V)).
  Context (Hcfg : configured sos st nv id bufs ies) (Hroom : roomy counts shareds nv bufs).

  Lemma sos_length : length sos = length counts.
  Proof. apply (make_all_inv _ _ _ Hlen Hmk). Qed.
  Lemma st_tables : length (nx_ranks st) = length counts /\ forall a x, nx_ranks st !! a = Some x ->
          table_correct counts shareds a (nx_result x) /\
          forall b ids, (b, ids) ∈ nx_result x <-> exists t, all_outs sos !! b = Some t /\ (a, ids) ∈ t.
  Proof.
    destruct (exchange_main _ _ _ Hlen Hnd Hrange Hmk) as [_ [N HN]].
    apply rtc_nsteps in Hst. destruct Hst as [n Hn]. destruct (HN _ _ Hn) as [_ [[st' Hs]|H]].
    - exfalso. destruct (nx_steps_inv _ _ _ _ (nx_inv_init (all_outs sos)) Hn) as [Hi _].
      inversion Hs as [s r x d ids rest Hr Hto|s r x i s' ids net1 net2 Hr Hto Hrv Hnet]; subst.
      + destruct (Hdone _ _ Hr) as [E _]. congruence.
      + destruct (Hdone _ _ Hr) as [_ E]. rewrite Forall_lookup in E. apply (E _ _ Hrv). reflexivity.
    - destruct H as (_ & _ & H1 & H2). auto.
  Qed.
  Lemma cfg_ready r so out t b ie :
    sos !! r = Some so -> all_outs sos !! r = Some out -> map nx_result (nx_ranks st) !! r = Some t ->
    bufs !! r = Some b -> ies !! r = Some ie ->
    ready (make_ctx so out t) nv id (b_owned b) (b_ostride b) (b_shared b) (b_sstride b) ie.
  Proof.
    intros Hso Hout Ht Hb Hie. destruct st_tables as [Ls Tt].
    change (map nx_result ?l) with (nx_result <$> l) in Ht. rewrite list_lookup_fmap in Ht.
    destruct (nx_ranks st !! r) as [x|] eqn:Ex; [|discriminate]. injection Ht as <-.
    destruct Hcfg as (_ & _ & Hc). destruct (Hc _ _ _ _ _ _ Hso Hout Ex Hb Hie) as (nvmax & fill & E).
    assert (Hr : r < length counts) by (rewrite <- Ls; eapply lookup_lt_Some; eauto).
    destruct (lookup_lt_is_Some_2 shareds r ltac:(lia)) as [sh Hsh].
    destruct (make_all_inv _ _ _ Hlen Hmk) as (L & Es & G). destruct (G _ _ Hsh) as (so' & c & Hso' & Hcn & Hm).
    assert (so' = so) by congruence. subst so'. apply make_inv in Hm. destruct Hm as [-> _].
    pose proof (outs_lookup _ _ _ Hlen Hrange Hmk _ _ Hsh) as Ho. rewrite Hout in Ho. injection Ho as ->.
    destruct (Hroom _ _ _ _ Hcn Hsh Hb) as (R1 & R2 & R3 & R4).
    eapply setup_ready in E; [destruct E as [E _]; exact E|..]; try assumption.
    - etransitivity; [|exact R1]. apply needed_least. eapply owned_inds_lt; [exact Hcn|]. apply Tt. exact Ex.
    - rewrite num_shared, out_concat.
      + rewrite sort_length. exact R2.
      + rewrite Forall_lookup in Hrange. eauto.
    - intros q off len. apply shared_bound.
  Qed.
  Lemma tables_ins a t : map nx_result (nx_ranks st) !! a = Some t -> table_correct counts shareds a t
     /\ forall b ids, (b, ids) ∈ t <-> exists o, all_outs sos !! b = Some o /\ (a, ids) ∈ o.
  Proof.
    intros Ht. change (map nx_result ?l) with (nx_result <$> l) in Ht. rewrite list_lookup_fmap in Ht.
    destruct (nx_ranks st !! a) as [x|] eqn:Ex; [|discriminate]. injection Ht as <-. apply st_tables. exact Ex.
  Qed.
  Lemma ins_length : length (map nx_result (nx_ranks st)) = length counts.
  Proof. rewrite map_length. apply st_tables. Qed.
  Lemma nv_small : (N.of_nat nv < 4096)%N.
  Proof.
    assert (H0 : 0 < length counts) by (destruct counts; [contradiction|cbn; lia]).
    destruct Hcfg as (L1 & L2 & _). pose proof sos_length as L0. pose proof ins_length as L3.
    pose proof (outs_length _ _ _ Hlen Hmk) as L4.
    destruct (lookup_lt_is_Some_2 sos 0 ltac:(lia)) as [so Hso].
    destruct (lookup_lt_is_Some_2 (all_outs sos) 0 ltac:(lia)) as [out Hout].
    destruct (lookup_lt_is_Some_2 (map nx_result (nx_ranks st)) 0 ltac:(lia)) as [t Ht].
    destruct (lookup_lt_is_Some_2 bufs 0 ltac:(lia)) as [b Hb].
    destruct (lookup_lt_is_Some_2 ies 0 ltac:(lia)) as [ie Hie].
    apply (rd_tag _ _ _ _ _ _ _ _ (cfg_ready _ _ _ _ _ _ Hso Hout Ht Hb Hie)).
  Qed.
  Lemma bufs_length : length bufs = length counts.
  Proof. rewrite <- sos_length. apply Hcfg. Qed.
  Lemma ies_length : length ies = length counts.
  Proof. rewrite <- sos_length. apply Hcfg. Qed.

  Definition client_import :=
    import_main counts shareds sos Hlen Hnd Hrange Hmk _ ins_length tables_ins nv id bufs ies bufs_length ies_length cfg_ready nv_small.
  Lemma client_export :
    exists progs, length progs = length counts
      /\ (forall r ie, ies !! r = Some ie -> exists p, progs !! r = Some p /\ export_post ie = Ok p)
      /\ exists N, forall k n, nsteps net_step k (net_init progs (map ie_pack ies)) n ->
        k <= N /\ n_err n = false /\
        ((exists n', net_step n n') \/
         (net_done n /\ forall a ba ie pack order combine,
            bufs !! a = Some ba -> ies !! a = Some ie -> n_mem n !! a = Some pack ->
            order ≡ₚ work nv (length (getOwnedInds (ie_ctx ie))) ->
            exists owned', unpack combine order pack ie = Ok owned'
            /\ length owned' = length (b_owned ba)
            /\ (forall v g old, v < nv -> owns counts a g ->
                  b_owned ba !! (v * b_ostride ba + (g - first_owned counts a)) = Some old ->
                  exists contribs, contribs ≡ₚ contributions shareds bufs v g
                    /\ owned' !! (v * b_ostride ba + (g - first_owned counts a)) = Some (foldl combine old contribs))
            /\ (forall p, (forall v g b sh, v < nv -> owns counts a g -> shareds !! b = Some sh -> g ∈ sh ->
                      p <> v * b_ostride ba + (g - first_owned counts a)) ->
                  owned' !! p = b_owned ba !! p))).
  Proof.
    apply (export_main counts shareds sos Hlen Hnd Hrange Hmk _ ins_length tables_ins nv id bufs ies bufs_length ies_length cfg_ready nv_small).
    intros r c b Hc Hb. destruct (lookup_lt_is_Some_2 shareds r) as [sh Hsh].
    { rewrite <- Hlen. eapply lookup_lt_Some; eauto. }
    apply (Hroom _ _ _ _ Hc Hsh Hb).
  Qed.
End client.

(** ** C14 *)
Lemma ready_fewer {V} c nv nv' id (ob : list V) os sb ss ie ie' :
  ready c nv id ob os sb ss ie -> nv' <= nv -> setNumVecs nv' ie = Ok ie' -> ready c nv' id ob os sb ss ie'.
Proof.
  intros R Hle E. unfold setNumVecs in E. apply bind_inv in E. destruct E as ([] & _ & E). injection E as <-.
  destruct R as [R1 R2 R3 R4 R5 R6 R7 R8 R9 R10 R11]. split; cbn; auto; try lia.
  - nia.
  - intros v j Hv. apply R10. lia.
  - intros v r off len Hv. apply R11. lia.
Qed.
Lemma bounds_main {V} so (out ins : nbr_info) nvmax nv nv' id (fill : V) ob os sb ss ie ie' :
  Forall (fun e => e.2 <> []) out ->
  setup (make_ctx so out ins) nvmax nv id fill ob os sb ss = Ok ie ->
  num_owned_needed (make_ctx so out ins) <= os -> getNumSharedInds (make_ctx so out ins) <= ss ->
  (Z.of_nat nv * Z.of_nat os + Z.of_nat os < 2 ^ 64)%Z ->
  (Z.of_nat nv * Z.of_nat ss + Z.of_nat ss < 2 ^ 64)%Z ->
  nv' <= nv -> setNumVecs nv' ie = Ok ie' ->
  forall order, order ≡ₚ work nv' (length (getOwnedInds (make_ctx so out ins))) ->
  (exists p, import_post order ie' = Ok p
     /\ forall src tag off len, ARecv src tag off len ∈ p -> off + len <= length sb)
  /\ (exists p, export_post ie' = Ok p
     /\ forall src tag off len, ARecv src tag off len ∈ p -> off + len <= length (ie_pack ie'))
  /\ (forall combine pack, length pack = length (ie_pack ie') -> exists ob', unpack combine order pack ie' = Ok ob').
Proof.
  intros Hout E H1 H2 H3 H4 Hle E' order Hord.
  pose proof (setup_ready _ _ _ _ _ _ _ _ _ _ E H1 H2 H3 H4 (fun r off len => shared_bound _ _ _ r off len)) as [R _].
  apply (ready_fewer _ _ _ _ _ _ _ _ _ _ R Hle) in E'. clear R E. rename E' into R.
  assert (Hsh : Forall (fun e => e.2 <> 0) (cx_shared (make_ctx so out ins))).
  { rewrite Forall_lookup. intros k [[q off] len] H. apply shared_lookup in H. destruct H as (ids & Ho & _ & ->). cbn.
    rewrite Forall_lookup in Hout. specialize (Hout _ _ Ho). destruct ids; [contradiction|cbn; lia]. }
  pose proof (rd_pack _ _ _ _ _ _ _ _ R) as Hpk.
  split; [|split].
  - destruct (import_post_ok _ _ _ _ _ _ _ _ R order Hord Hsh) as (buf & E & _ & _). eexists. split; [exact E|].
    intros src tag off len Hin. apply elem_of_app in Hin. destruct Hin as [Hin|Hin].
    + unfold recv_acts in Hin. apply elem_of_list_fmap in Hin. destruct Hin as ([v [[r o] l]] & E1 & Hin).
      injection E1 as -> -> -> ->. apply prod_elem in Hin. destruct Hin as [Hv Hin]. cbn [fst snd].
      rewrite Forall_forall in Hsh. apply (rd_ssz _ _ _ _ _ _ _ _ R v r o l Hv Hin (Hsh _ Hin)).
    + unfold send_acts in Hin. apply elem_of_lookup_imap_1 in Hin. destruct Hin as (n & x & E1 & _). discriminate.
  - eexists. split; [apply (export_post_ok _ _ _ _ _ _ _ _ R Hsh)|].
    intros src tag off len Hin. apply elem_of_app in Hin. destruct Hin as [Hin|Hin].
    + unfold xrecv_acts in Hin. apply elem_of_lookup_imap_1 in Hin. destruct Hin as (n & x & E1 & Hn).
      injection E1 as -> -> -> ->.
      set (W := list_prod _ _) in *.
      assert (EL : map (fun ve : nat * (nat * list nat) => length ve.2.2) W !! n = Some (length x.2.2)).
      { change (map ?f W) with (f <$> W). rewrite list_lookup_fmap, Hn. reflexivity. }
      rewrite <- (sum_take_S _ _ _ EL). etransitivity; [apply sum_take_le|].
      unfold W. rewrite lens_total. exact Hpk.
    + unfold xsend_acts in Hin. apply elem_of_list_fmap in Hin. destruct Hin as (x & E1 & _). discriminate.
  - intros combine pack HL. destruct (unpack_ok _ _ _ _ _ _ _ _ R combine order pack Hord) as (ob' & E & _).
    { intros v i Hv Hi. apply lookup_lt_is_Some_2. nia. }
    eauto.
Qed.

Lemma tags_main c1 v1 c2 v2 : (N.of_nat v1 < 4096)%N -> (N.of_nat v2 < 4096)%N ->
    (makeTag c1 v1 = makeTag c2 v2 <-> v1 = v2 /\ (c1 mod 256 = c2 mod 256)%N)
    /\ (N.of_nat (makeTag c1 v1) < 2 ^ 20)%N.
Proof.
  intros H1 H2. split; [apply tag_inj; assumption|]. rewrite tag_value, N2Nat.id.
  assert (c1 mod 256 < 256)%N by (apply N.mod_upper_bound; discriminate).
  assert (N.of_nat v1 mod 4096 < 4096)%N by (apply N.mod_upper_bound; discriminate).
  change (2 ^ 20)%N with 1048576%N. set (a := (c1 mod 256)%N) in *. set (b := (_ mod 4096)%N) in *. clearbody a b. lia.
Qed.
