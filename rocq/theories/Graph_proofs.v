From Verif Require Import Base StdAlgo Graph_model Graph_spec.
Local Arguments Nat.ltb : simpl never.
Local Arguments Nat.leb : simpl never.
Local Arguments Nat.eqb : simpl never.

(** *** Rows *)
Lemma row_inv g v l : row g v = Ok l -> exists b e, crs_offs g !! v = Some b /\ crs_offs g !! (v + 1) = Some e /\
  b <= e /\ e <= length (crs_adj g) /\ row_range g v = Ok (b, e) /\ l = take (e - b) (drop b (crs_adj g)).
Proof.
  unfold row. intros H. apply bind_inv in H as ([b e] & H & Hl). injection Hl as <-.
  pose proof H as H0. unfold row_range, at_ in H0.
  destruct (crs_offs g !! v) as [b'|]; [|done]. cbn in H0. destruct (crs_offs g !! (v + 1)) as [e'|]; [|done]. cbn in H0.
  destruct ((b' <=? e') && (e' <=? length (crs_adj g))) eqn:E; [|done]. injection H0 as -> ->.
  apply andb_true_iff in E as [E1 E2]. apply Nat.leb_le in E1, E2. eauto 10.
Qed.
Lemma row_range_ok g v b e : crs_offs g !! v = Some b -> crs_offs g !! (v + 1) = Some e -> b <= e -> e <= length (crs_adj g) ->
  row_range g v = Ok (b, e).
Proof.
  intros Hb He H1 H2. unfold row_range, at_. rewrite Hb, He. cbn.
  by rewrite (proj2 (Nat.leb_le _ _) H1), (proj2 (Nat.leb_le _ _) H2).
Qed.
Lemma row_lt g v l : row g v = Ok l -> v < crs_rows g.
Proof. intros (b & e & _ & He & _)%row_inv. apply lookup_lt_Some in He. unfold crs_rows. lia. Qed.

(** The number of entries of the unvisited rows. *)
Definition deg (g : crs) (v : nat) : nat := match row g v with Ok l => length l | _ => 0 end.
Definition pending (g : crs) (visited : list nat) : nat :=
  sum (map (deg g) (List.filter (fun v => negb (bool_decide (v ∈ visited))) (seq 0 (crs_rows g)))).
Lemma deg_sum g : well_formed g -> forall k b, k <= crs_rows g -> crs_offs g !! k = Some b -> sum (map (deg g) (seq 0 k)) <= b /\ b <= length (crs_adj g) \/ k = 0.
Proof.
  intros [Hne Hwf]; induction k as [|k IH]; intros b Hk Hb; [by right|left].
  destruct (Hwf k ltac:(lia)) as (l & Hl & _). destruct (row_inv _ _ _ Hl) as (b' & e & Hb' & He & Hbe & Hel & _ & El).
  replace (k + 1) with (S k) in He by lia. rewrite Hb in He. injection He as <-.
  split; [|lia]. rewrite seq_S, map_app, sum_app. cbn [map]. rewrite sum_cons. cbn [sum foldr Nat.add].
  assert (deg g k = b - b'). { unfold deg. rewrite Hl, El, take_length, drop_length. lia. }
  destruct (IH b' ltac:(lia) Hb') as [[H1 H2]| ->]; [lia|]. cbn. lia.
Qed.
Lemma pending_init g : well_formed g -> pending g [] <= length (crs_adj g).
Proof.
  intros Hwf. unfold pending.
  assert (List.filter (fun v => negb (bool_decide (v ∈ []))) (seq 0 (crs_rows g)) = seq 0 (crs_rows g)) as ->.
  { generalize (seq 0 (crs_rows g)). induction l as [|v l IH]; [done|]. cbn [List.filter].
    rewrite bool_decide_eq_false_2 by (by apply not_elem_of_nil). cbn. by f_equal. }
  destruct (lookup_lt_is_Some_2 (crs_offs g) (crs_rows g)) as [b Hb]. { unfold crs_rows. destruct Hwf as [? _]. lia. }
  destruct (deg_sum g Hwf (crs_rows g) b ltac:(lia) Hb) as [[H1 H2]| ->]; [lia|cbn; lia].
Qed.
Lemma filter_length_split {A} (P Q : A -> bool) (f : A -> nat) l x : NoDup l -> x ∈ l -> P x = true -> Q x = false ->
  (forall y, y <> x -> P y = Q y) -> sum (map f (List.filter P l)) = sum (map f (List.filter Q l)) + f x.
Proof.
  intros Hnd Hx HP HQ Heq. induction l as [|y l IH]; [by apply elem_of_nil in Hx|].
  apply NoDup_cons in Hnd as [Hy Hnd]. cbn [List.filter]. apply elem_of_cons in Hx as [-> |Hx].
  - rewrite HP, HQ. cbn [map]. rewrite sum_cons.
    assert (List.filter P l = List.filter Q l) as ->; [|lia].
    assert (forall z, z ∈ l -> P z = Q z) as H. { intros z Hz. apply Heq. intros ->. done. }
    clear -H. induction l as [|z l IH]; [done|]. cbn [List.filter]. rewrite (H z) by (by left).
    rewrite IH; [done|]. intros w Hw. apply H. by right.
  - rewrite <- (Heq y) by congruence. destruct (P y); cbn [map]; rewrite ?sum_cons, IH by done; lia.
Qed.
Lemma pending_visit g visited v : v < crs_rows g -> v ∉ visited ->
  pending g visited = pending g (visited ++ [v]) + deg g v.
Proof.
  intros Hv Hn. unfold pending. apply (filter_length_split _ _ (deg g) _ v).
  - apply NoDup_seq.
  - apply elem_of_seq. lia.
  - by rewrite bool_decide_eq_false_2.
  - rewrite bool_decide_eq_true_2; [done|]. apply elem_of_app. right. by left.
  - intros y Hy. f_equal. apply bool_decide_ext. rewrite elem_of_app, elem_of_list_singleton. naive_solver.
Qed.

Section dfs.
  Context (g : crs) (start : nat) (Hwf : well_formed g) (Hstart : start < crs_rows g).
  Record dinv (visited stack : list nat) : Prop := {
    d_nodup : NoDup visited;
    d_reach : forall v, v ∈ visited \/ v ∈ stack -> rtc (edge g) start v;
    d_range : forall v, v ∈ visited \/ v ∈ stack -> v < crs_rows g;
    d_closed : forall u v, u ∈ visited -> edge g u v -> v ∈ visited \/ v ∈ stack;
    d_start : start ∈ visited \/ start ∈ stack }.
  Lemma dfs_loop_ok fuel visited stack : dinv visited stack -> length stack + pending g visited < fuel ->
    exists out, dfs_loop fuel g visited stack = Ok out /\ NoDup out /\ forall v, v ∈ out <-> rtc (edge g) start v.
  Proof.
    revert visited stack. induction fuel as [|fuel IH]; intros visited stack Hi Hf; [lia|].
    destruct stack as [|cur stack]; cbn [dfs_loop].
    - eexists; split; [done|]. destruct Hi as [Hnd Hre Hra Hcl Hs]. split; [done|].
      intros v. split; [eauto|]. intros Hr.
      assert (start ∈ visited) as Hsv by (destruct Hs as [|?%elem_of_nil]; done). clear Hs.
      assert (forall a, a ∈ visited -> rtc (edge g) a v -> v ∈ visited) as Hgen; [|eauto].
      clear -Hcl. intros a Ha Hr. induction Hr as [a|a b c Hab Hbc IH]; [done|].
      apply IH. destruct (Hcl a b Ha Hab) as [|?%elem_of_nil]; done.
    - case_bool_decide as Hc.
      + apply IH; [|cbn [List.length] in Hf; lia]. destruct Hi as [Hnd Hre Hra Hcl Hs]. split; try done.
        * intros v Hv. apply Hre. rewrite elem_of_cons. tauto.
        * intros v Hv. apply Hra. rewrite elem_of_cons. tauto.
        * intros u v Hu He. destruct (Hcl u v Hu He) as [|[-> |]%elem_of_cons]; auto.
        * destruct Hs as [|[-> |]%elem_of_cons]; auto.
      + destruct Hi as [Hnd Hre Hra Hcl Hs].
        assert (cur < crs_rows g) as Hcr by (apply Hra; right; by left).
        destruct (proj2 Hwf cur Hcr) as (nbrs & Hn & Hnr). rewrite Hn. cbn [mbind res_bind].
        set (new := List.filter _ nbrs).
        assert (Hnew : forall v, v ∈ new <-> v ∈ nbrs /\ v ∉ visited ++ [cur]).
        { intros v. unfold new. rewrite (elem_of_list_In (List.filter _ _)), filter_In, <- (elem_of_list_In nbrs).
          rewrite negb_true_iff, bool_decide_eq_false. done. }
        apply IH.
        * split.
          -- apply NoDup_app. split; [done|]. split; [|apply NoDup_singleton].
             intros x Hx Hx'%elem_of_list_singleton. by subst.
          -- intros v [[Hv| ->%elem_of_list_singleton]%elem_of_app|[[Hv _]%Hnew|Hv]%elem_of_app].
             ++ apply Hre. by left.
             ++ apply Hre. right. by left.
             ++ apply rtc_r with cur; [apply Hre; right; by left|]. by exists nbrs.
             ++ apply Hre. right. by right.
          -- intros v [[Hv| ->%elem_of_list_singleton]%elem_of_app|[[Hv _]%Hnew|Hv]%elem_of_app]; auto.
             ++ by eapply (proj1 (Forall_forall _ _) Hnr).
             ++ apply Hra. right. by right.
          -- intros u v [Hu| ->%elem_of_list_singleton]%elem_of_app He.
             ++ rewrite !elem_of_app, elem_of_list_singleton.
                destruct (Hcl u v Hu He) as [|[-> |]%elem_of_cons]; auto.
             ++ destruct He as (l & Hl & Hv). rewrite Hn in Hl. injection Hl as <-.
                destruct (decide (v ∈ visited ++ [cur])) as [|Hnv]; [by left|right].
                apply elem_of_app. left. by apply Hnew.
          -- rewrite !elem_of_app, elem_of_list_singleton. destruct Hs as [|[-> |]%elem_of_cons]; auto.
        * rewrite (pending_visit g visited cur Hcr Hc) in Hf. rewrite app_length. cbn [List.length] in Hf.
          assert (length new <= deg g cur); [|lia].
          unfold deg. rewrite Hn. unfold new.
          clear. induction nbrs as [|y l IHl]; [done|]. cbn [List.filter].
          destruct (negb _); cbn [List.length]; lia.
  Qed.
  Lemma dfs_ok : exists out, depthFirstSearch g start = Ok out /\ NoDup out /\ forall v, v ∈ out <-> rtc (edge g) start v.
  Proof.
    unfold depthFirstSearch. apply dfs_loop_ok.
    - split.
      + constructor.
      + intros v [?%elem_of_nil| ->%elem_of_list_singleton]; [done|]. apply rtc_refl.
      + intros v [?%elem_of_nil| ->%elem_of_list_singleton]; done.
      + intros u v ?%elem_of_nil; done.
      + right. by left.
    - cbn [List.length]. pose proof (pending_init g Hwf). lia.
  Qed.
End dfs.

(** *** Components *)
Lemma edge_range g u v : well_formed g -> edge g u v -> u < crs_rows g /\ v < crs_rows g.
Proof.
  intros Hwf (l & Hl & Hv). pose proof (row_lt _ _ _ Hl) as Hu. split; [done|].
  destruct (proj2 Hwf u Hu) as (l' & Hl' & Hr). rewrite Hl in Hl'. injection Hl' as <-.
  by eapply (proj1 (Forall_forall _ _) Hr).
Qed.
Lemma reach_range g u v : well_formed g -> u < crs_rows g -> rtc (edge g) u v -> v < crs_rows g.
Proof. intros Hwf Hu Hr. induction Hr as [u|u w v He _ IH]; [done|]. apply IH. by apply (edge_range _ _ _ Hwf) in He as []. Qed.
Lemma reach_sym g u v : symmetric g -> rtc (edge g) u v -> rtc (edge g) v u.
Proof. intros Hs H. induction H as [|u w v He _ IH]; [done|]. eapply rtc_r; [exact IH|by apply Hs]. Qed.
Lemma mark_all l (lu : list bool) : Forall (fun i => i < length lu) l ->
  exists lu', for_each (fun i lu => wr lu i true) l lu = Ok lu' /\ length lu' = length lu /\
    forall i, lu' !! i = Some true <-> lu !! i = Some true \/ i ∈ l.
Proof.
  revert lu. induction l as [|x l IH]; intros lu Hl.
  - exists lu. split; [done|]. split; [done|]. intros i. rewrite elem_of_nil. tauto.
  - apply Forall_cons in Hl as [Hx Hl]. cbn [for_each]. rewrite wr_ok by done. cbn [mbind res_bind].
    destruct (IH (<[x := true]> lu)) as (lu' & E & Hlen & Hiff). { by rewrite insert_length. }
    exists lu'. split; [done|]. rewrite insert_length in Hlen. split; [done|].
    intros i. rewrite Hiff, list_lookup_insert_Some, elem_of_cons.
    destruct (decide (x = i)) as [-> |]; naive_solver.
Qed.

Section components.
  Context (g : crs) (Hwf : well_formed g) (Hsym : symmetric g).
  Let n := crs_rows g.
  Record cinv (k : nat) (lu : list bool) (comps : list (list nat)) : Prop := {
    c_len : length lu = n;
    c_lu : forall i, lu !! i = Some true <-> i ∈ concat comps;
    c_done : forall v, v < k -> v ∈ concat comps;
    c_nodup : NoDup (concat comps);
    c_sorted : Forall (Sorted Nat.le) comps;
    c_range : forall v, v ∈ concat comps -> v < n;
    c_comp : forall c, c ∈ comps -> c <> [] /\ forall u v, u ∈ c -> (v ∈ c <-> rtc (edge g) u v) }.
  Lemma comp_step_ok k lu comps : k < n -> cinv k lu comps ->
    exists lu' comps', comp_step g k (lu, comps) = Ok (lu', comps') /\ cinv (S k) lu' comps'.
  Proof.
    intros Hk [Hlen Hlu Hdone Hnd Hso Hra Hco]. unfold comp_step. cbn [fst snd].
    destruct (lookup_lt_is_Some_2 lu k) as [b Hb]; [lia|]. rewrite (rd_ok _ _ _ Hb). cbn [mbind res_bind].
    destruct b.
    - exists lu, comps. split; [done|]. split; try done.
      intros v Hv. destruct (decide (v = k)) as [-> |]; [by apply Hlu|]. apply Hdone. lia.
    - destruct (dfs_ok g k Hwf Hk) as (found & -> & Hfn & Hfr). cbn [mbind res_bind].
      destruct (mark_all (sort found) lu) as (lu' & -> & Hlen' & Hlu').
      { apply Forall_forall. intros v Hv. rewrite sort_elem in Hv. apply Hfr in Hv. rewrite Hlen. by eapply reach_range. }
      exists lu', (comps ++ [sort found]). split; [done|].
      assert (Hcat : forall v, v ∈ concat (comps ++ [sort found]) <-> v ∈ concat comps \/ rtc (edge g) k v).
      { intros v. rewrite concat_app, elem_of_app. cbn [concat]. rewrite app_nil_r, sort_elem, Hfr. done. }
      assert (Hknot : k ∉ concat comps). { rewrite <- Hlu, Hb. done. }
      split.
      + by rewrite Hlen'.
      + intros i. rewrite Hlu', Hlu, Hcat, sort_elem, Hfr. done.
      + intros v Hv. rewrite Hcat. destruct (decide (v = k)) as [-> |]; [right; apply rtc_refl|left; apply Hdone; lia].
      + rewrite concat_app. cbn [concat]. rewrite app_nil_r. apply NoDup_app. split; [done|].
        split; [|by apply sort_nodup]. intros v Hv Hv'. rewrite sort_elem, Hfr in Hv'.
        apply elem_of_concat in Hv as (c & Hc & Hcc). apply Hknot, elem_of_concat.
        exists c. split; [|done]. apply (proj2 (Hco c Hcc) v k Hc). by apply reach_sym.
      + apply Forall_app. split; [done|]. constructor; [apply sort_sorted|constructor].
      + intros v [Hv|Hv]%Hcat; [by apply Hra|by eapply reach_range].
      + intros c [Hc| ->%elem_of_list_singleton]%elem_of_app; [by apply Hco|].
        split.
        * intros E. assert (k ∈ sort found) as Hk' by (rewrite sort_elem, Hfr; apply rtc_refl).
          rewrite E in Hk'. by apply elem_of_nil in Hk'.
        * intros u v Hu. rewrite sort_elem, Hfr in Hu. rewrite sort_elem, Hfr. split; intros Hr.
          -- eapply rtc_transitive; [|done]. by apply reach_sym.
          -- by eapply rtc_transitive.
  Qed.
  Lemma comps_upto k lu comps m : cinv k lu comps -> k + m <= n ->
    exists lu' comps', for_each (comp_step g) (seq k m) (lu, comps) = Ok (lu', comps') /\ cinv (k + m) lu' comps'.
  Proof.
    revert k lu comps. induction m as [|m IH]; intros k lu comps Hi Hm; cbn [seq for_each].
    - rewrite Nat.add_0_r. eauto.
    - destruct (comp_step_ok k lu comps ltac:(lia) Hi) as (lu' & comps' & -> & Hi'). cbn [mbind res_bind].
      destruct (IH (S k) lu' comps' Hi' ltac:(lia)) as (lu'' & comps'' & -> & Hi'').
      exists lu'', comps''. split; [done|]. by replace (k + S m) with (S k + m) by lia.
  Qed.
  Lemma components_ok : exists comps, getComponentsUndirected g = Ok comps /\
    concat comps ≡ₚ seq 0 n /\ Forall (fun c => c <> [] /\ StronglySorted lt c) comps /\
    forall u v, u < n -> v < n -> (exists c, c ∈ comps /\ u ∈ c /\ v ∈ c) <-> rtc (edge g) u v.
  Proof.
    unfold getComponentsUndirected.
    assert (Hinit : cinv 0 (replicate n false) []).
    { split; cbn.
      - by rewrite replicate_length.
      - intros i. rewrite lookup_replicate, elem_of_nil. naive_solver.
      - lia.
      - constructor.
      - constructor.
      - intros v ?%elem_of_nil; done.
      - intros c ?%elem_of_nil; done. }
    destruct (comps_upto 0 _ _ n Hinit ltac:(lia)) as (lu & comps & E & Hi).
    fold n. rewrite E. cbn [mbind res_bind snd]. exists comps. split; [done|].
    destruct Hi as [Hlen Hlu Hdone Hnd Hso Hra Hco]. cbn [Nat.add] in Hdone. split; [|split].
    - apply NoDup_Permutation; [done|apply NoDup_seq|]. intros v. rewrite elem_of_seq. split; [intros; apply Hra in H; lia|].
      intros. apply Hdone. lia.
    - apply Forall_forall. intros c Hc. split; [by apply Hco|]. apply sorted_nodup_strict; [by eapply (proj1 (Forall_forall _ _) Hso)|].
      clear -Hnd Hc. induction comps as [|c' cs IH]; [by apply elem_of_nil in Hc|].
      cbn [concat] in Hnd. apply NoDup_app in Hnd as (H1 & _ & H2). apply elem_of_cons in Hc as [-> |Hc]; auto.
    - intros u v Hu Hv. split.
      + intros (c & Hc & Huc & Hvc). by apply (proj2 (Hco c Hc) u v Huc).
      + intros Hr. pose proof (Hdone u Hu) as (c & Huc & Hc)%elem_of_concat. exists c. split; [done|]. split; [done|].
        by apply (proj2 (Hco c Hc) u v Huc).
  Qed.
End components.

(** *** makeCrsGraph *)
Lemma set_insert_elem x y l : x ∈ set_insert y l <-> x = y \/ x ∈ l.
Proof. unfold set_insert. case_bool_decide; [naive_solver|]. rewrite elem_of_app, elem_of_list_singleton. tauto. Qed.
Lemma set_insert_nodup y l : NoDup l -> NoDup (set_insert y l).
Proof.
  intros H. unfold set_insert. case_bool_decide as Hy; [done|]. apply NoDup_app. split; [done|]. split; [|apply NoDup_singleton].
  intros x Hx ->%elem_of_list_singleton. done.
Qed.
Lemma vmap_find_insert k x m k' :
  vmap_find k' (vmap_insert k x m) = if k' =? k then Some (set_insert x (default [] (vmap_find k m))) else vmap_find k' m.
Proof.
  induction m as [|[k0 l] m IH]; cbn [vmap_insert vmap_find].
  - destruct (Nat.eqb_spec k' k); done.
  - destruct (Nat.eqb_spec k k0) as [-> |Hne]; cbn [vmap_find].
    + destruct (Nat.eqb_spec k' k0); done.
    + rewrite IH. destruct (Nat.eqb_spec k' k0) as [-> |]; [|done].
      destruct (Nat.eqb_spec k0 k); [congruence|done].
Qed.
Lemma vmap_keys_insert k x m : NoDup m.*1 -> NoDup (vmap_insert k x m).*1 /\ forall k', k' ∈ (vmap_insert k x m).*1 -> k' = k \/ k' ∈ m.*1.
Proof.
  induction m as [|[k0 l] m IH]; cbn [vmap_insert fmap list_fmap fst].
  - intros _. split; [apply NoDup_singleton|]. intros k' ->%elem_of_list_singleton. by left.
  - intros [Hk0 Hnd]%NoDup_cons. destruct (Nat.eqb_spec k k0) as [-> |Hne]; cbn [fmap list_fmap fst].
    + split; [by constructor|]. intros k' Hk'. by right.
    + destruct (IH Hnd) as [H1 H2]. split.
      * constructor; [|done]. intros [-> |?]%H2; done.
      * intros k' [-> |Hk']%elem_of_cons; [right; by left|]. apply H2 in Hk' as [-> |]; [by left|]. right. by right.
Qed.
Lemma vmap_find_elem k l m : NoDup m.*1 -> (k, l) ∈ m <-> vmap_find k m = Some l.
Proof.
  induction m as [|[k0 l0] m IH]; cbn [vmap_find fmap list_fmap fst].
  - intros _. rewrite elem_of_nil. naive_solver.
  - intros [Hk0 Hnd]%NoDup_cons. rewrite elem_of_cons. destruct (Nat.eqb_spec k k0) as [-> |Hne].
    + split; [|intros [= ->]; by left]. intros [[= ->]|H]; [done|]. destruct Hk0. apply elem_of_list_fmap. by exists (k0, l).
    + rewrite IH by done. naive_solver.
Qed.
Record vinv (ud : bool) (es : list (nat * nat)) (m : vmap) (mx : nat) : Prop := {
  w_keys : NoDup m.*1;
  w_set : forall k l, vmap_find k m = Some l -> NoDup l /\ l <> [];
  w_elem : forall u v, v ∈ default [] (vmap_find u m) <-> (u, v) ∈ es \/ (ud = true /\ (v, u) ∈ es);
  w_max : forall e, e ∈ es -> e.1 <= mx /\ e.2 <= mx;
  w_mem : es = [] /\ mx = 0 \/ exists e, e ∈ es /\ (e.1 = mx \/ e.2 = mx) }.
Lemma vins_set k x m : (forall k l, vmap_find k m = Some l -> NoDup l /\ l <> []) ->
  forall k' l, vmap_find k' (vmap_insert k x m) = Some l -> NoDup l /\ l <> [].
Proof.
  intros H k' l. rewrite vmap_find_insert. destruct (Nat.eqb_spec k' k) as [-> |]; [|apply H].
  intros [= <-]. split.
  - apply set_insert_nodup. destruct (vmap_find k m) eqn:E; [by eapply H|constructor].
  - intros E. assert (x ∈ ([] : list nat)) as Hx; [|by apply elem_of_nil in Hx]. rewrite <- E. apply set_insert_elem. by left.
Qed.
Lemma vins_elem k x m u v : v ∈ default [] (vmap_find u (vmap_insert k x m)) <-> v ∈ default [] (vmap_find u m) \/ (u = k /\ v = x).
Proof.
  rewrite vmap_find_insert. destruct (Nat.eqb_spec u k) as [-> |]; [|naive_solver].
  cbn [default from_option id]. rewrite set_insert_elem. tauto.
Qed.
Lemma edge_step_ok ud es m mx e : vinv ud es m mx ->
  vinv ud (es ++ [e]) (edge_step ud (m, mx) e).1 (edge_step ud (m, mx) e).2.
Proof.
  intros [Hk Hs He Hm Hmem]. destruct e as [f t]. cbn [edge_step fst snd]. split.
  - destruct ud; [apply vmap_keys_insert|]; by apply vmap_keys_insert.
  - destruct ud; [apply vins_set|]; by apply vins_set.
  - intros u v. rewrite !elem_of_app, !elem_of_list_singleton.
    destruct ud; rewrite ?vins_elem, He; naive_solver.
  - intros e' [H%Hm| ->%elem_of_list_singleton]%elem_of_app; cbn; lia.
  - right.
    destruct (decide (t = Nat.max (Nat.max mx f) t)) as [E|E].
    { exists (f, t). rewrite elem_of_app, elem_of_list_singleton. cbn. auto. }
    destruct (decide (f = Nat.max (Nat.max mx f) t)) as [E2|E2].
    { exists (f, t). rewrite elem_of_app, elem_of_list_singleton. cbn. auto. }
    destruct Hmem as [[-> ->]|(e & Hin & He')]; [lia|].
    exists e. rewrite elem_of_app. split; [by left|]. lia.
Qed.
Lemma edges_ok ud es2 es1 m mx : vinv ud es1 m mx ->
  vinv ud (es1 ++ es2) (foldl (edge_step ud) (m, mx) es2).1 (foldl (edge_step ud) (m, mx) es2).2.
Proof.
  revert es1 m mx. induction es2 as [|e es2 IH]; intros es1 m mx Hi; cbn [foldl].
  - by rewrite app_nil_r.
  - pose proof (edge_step_ok ud es1 m mx e Hi) as Hi'.
    destruct (edge_step ud (m, mx) e) as [m' mx']. replace (es1 ++ e :: es2) with ((es1 ++ [e]) ++ es2) by (by rewrite <- app_assoc).
    by apply IH.
Qed.
Lemma vinv_nil ud : vinv ud [] [] 0.
Proof.
  split; cbn.
  - apply NoDup_nil_2.
  - done.
  - intros u v. rewrite !elem_of_nil. tauto.
  - intros e He. by apply elem_of_nil in He.
  - by left.
Qed.

Lemma slice_lookup {A} b e (l : list A) i : take (e - b) (drop b l) !! i = if decide (i < e - b) then l !! (b + i) else None.
Proof. case_decide; [by rewrite lookup_take, lookup_drop by lia|by rewrite lookup_take_ge by lia]. Qed.
Lemma writes_ok b en ds (adj : list nat) k : b + k + length ds <= en -> en <= length adj ->
  for_each (fun (kx : nat * nat) adj => if b + kx.1 <? en then wr adj (b + kx.1) kx.2 else UB) (zip (seq k (length ds)) ds) adj
  = Ok (list_inserts (b + k) ds adj).
Proof.
  revert k adj. induction ds as [|d ds IH]; intros k adj H1 H2; cbn [List.length seq zip zip_with for_each list_inserts]; [done|].
  cbn [List.length] in H1. cbn [fst snd]. rewrite (proj2 (Nat.ltb_lt _ _)) by lia. rewrite wr_ok by lia. cbn [mbind res_bind].
  rewrite IH; [|lia|rewrite insert_length; lia]. f_equal.
  replace (b + S k) with (S (b + k)) by lia.
  apply list_eq. intros i. destruct (decide (i = b + k)) as [-> |Hi].
  - rewrite list_lookup_inserts_lt by lia. rewrite !list_lookup_insert; [done|rewrite inserts_length; lia|lia].
  - rewrite list_lookup_insert_ne by lia.
    destruct (decide (S (b + k) <= i < S (b + k) + length ds)) as [Hd|Hd].
    + rewrite !list_lookup_inserts; rewrite ?insert_length; try lia. done.
    + destruct (decide (i < S (b + k))).
      * rewrite !list_lookup_inserts_lt by lia. by rewrite list_lookup_insert_ne by lia.
      * rewrite !list_lookup_inserts_ge by lia. by rewrite list_lookup_insert_ne by lia.
Qed.
Lemma fill_row_ok g v ds b e : row_range g v = Ok (b, e) -> b <= e -> e <= length (crs_adj g) -> length ds = e - b ->
  exists g', fill_row g (v, ds) = Ok g' /\ crs_offs g' = crs_offs g /\ length (crs_adj g') = length (crs_adj g) /\
    take (e - b) (drop b (crs_adj g')) = sort ds /\
    forall i, i < b \/ e <= i -> crs_adj g' !! i = crs_adj g !! i.
Proof.
  intros Hr Hbe Hel Hd. unfold fill_row. cbn [fst snd]. rewrite Hr. cbn [mbind res_bind].
  rewrite writes_ok by lia. cbn [mbind res_bind]. rewrite Nat.add_0_r. eexists. split; [done|]. cbn [crs_offs crs_adj].
  set (adj := list_inserts b ds (crs_adj g)).
  assert (Hl : length adj = length (crs_adj g)) by (unfold adj; apply inserts_length).
  assert (Hs : take (e - b) (drop b adj) = ds).
  { apply list_eq. intros i. rewrite slice_lookup. case_decide.
    - unfold adj. rewrite list_lookup_inserts by lia. f_equal. lia.
    - symmetry. apply lookup_ge_None. lia. }
  rewrite Hs.
  assert (Ht : length (take b adj) = b) by (rewrite take_length; lia).
  assert (Hsl : length (sort ds) = e - b) by (by rewrite sort_length).
  split; [done|]. split; [|split].
  - rewrite !app_length, Ht, Hsl, drop_length. lia.
  - rewrite drop_app_alt by done. by rewrite take_app_alt by done.
  - intros i [Hi|Hi].
    + rewrite lookup_app_l by lia. rewrite lookup_take by done. unfold adj. by rewrite list_lookup_inserts_lt.
    + rewrite lookup_app_r by lia. rewrite Ht, lookup_app_r by lia. rewrite Hsl, lookup_drop.
      unfold adj. rewrite list_lookup_inserts_ge by lia. f_equal. lia.
Qed.

Lemma last_at (l : list nat) x : l <> [] -> l !! (length l - 1) = Some (List.last l x).
Proof.
  destruct l as [|a l _] using rev_ind; [done|]. intros _. rewrite app_length, List.last_last. cbn [List.length].
  rewrite lookup_app_r by lia. by replace (length l + 1 - 1 - length l) with 0 by lia.
Qed.
Lemma offs_lookup ds i : i <= length ds -> (0 :: inclusive_scan 0 ds) !! i = Some (sum (take i ds)).
Proof.
  intros Hi. destruct i as [|i]; [done|]. change ((0 :: inclusive_scan 0 ds) !! S i) with (inclusive_scan 0 ds !! i).
  destruct (lookup_lt_is_Some_2 ds i) as [a Ha]; [lia|]. by rewrite (inclusive_scan_lookup 0 ds i a Ha).
Qed.

Section build.
  Context (fill : nat -> nat) (m : vmap) (mx : nat).
  Context (Hkeys : NoDup m.*1).
  Context (Hmx : forall k, k ∈ m.*1 -> k <= mx).
  Context (shuffle : vmap -> vmap) (Hsh : forall x, shuffle x ≡ₚ x).
  Context (shuffle_row : list nat -> list nat) (Hsr : forall x, shuffle_row x ≡ₚ x).
  Let ds := degrees m mx.
  Let O i := sum (take i ds).
  Lemma ds_len : length ds = S mx.
  Proof. unfold ds, degrees. rewrite map_length, seq_length. lia. Qed.
  Lemma ds_at v : v <= mx -> ds !! v = Some (length (default [] (vmap_find v m))).
  Proof.
    intros. unfold ds, degrees. change (map ?f ?l) with (f <$> l). rewrite list_lookup_fmap, lookup_seq_lt by lia.
    cbn. by destruct (vmap_find v m).
  Qed.
  Lemma O_S v : v <= mx -> O (S v) = O v + length (default [] (vmap_find v m)).
  Proof. intros. unfold O. by rewrite (sum_take_S _ _ _ (ds_at v H)). Qed.
  Lemma O_mono i j : i <= j -> O i <= O j.
  Proof. apply sum_take_mono. Qed.
  Record binv (pre : vmap) (g : crs) : Prop := {
    b_offs : crs_offs g = 0 :: inclusive_scan 0 ds;
    b_len : length (crs_adj g) = O (S mx);
    b_rows : forall v l, (v, l) ∈ pre -> take (O (S v) - O v) (drop (O v) (crs_adj g)) = sort l }.
  Lemma binv_row pre g v : binv pre g -> v <= mx -> row_range g v = Ok (O v, O (S v)).
  Proof.
    intros [Ho Hl _] Hv. apply row_range_ok.
    - rewrite Ho. apply offs_lookup. rewrite ds_len. lia.
    - rewrite Ho, Nat.add_1_r. apply offs_lookup. rewrite ds_len. lia.
    - apply O_mono. lia.
    - rewrite Hl. apply O_mono. lia.
  Qed.
  Lemma bstep pre g v l : binv pre g -> vmap_find v m = Some l -> (forall l', (v, l') ∉ pre) ->
    (forall k l, (k, l) ∈ pre -> k <= mx) ->
    exists g', fill_row g (v, shuffle_row l) = Ok g' /\ binv (pre ++ [(v, l)]) g'.
  Proof.
    intros Hi Hf Hpre Hprem.
    assert (Hv : v <= mx). { apply Hmx. apply elem_of_list_fmap. exists (v, l). split; [done|]. by apply vmap_find_elem. }
    pose proof (binv_row pre g v Hi Hv) as Hr. destruct Hi as [Ho Hl Hrows].
    assert (HOS : O (S v) = O v + length l) by (rewrite O_S by done; by rewrite Hf).
    destruct (fill_row_ok g v (shuffle_row l) _ _ Hr) as (g' & -> & Ho' & Hl' & Hs & Hother).
    - lia.
    - rewrite Hl. apply O_mono. lia.
    - rewrite (Permutation_length (Hsr l)). lia.
    - exists g'. split; [done|]. split; [congruence|congruence|].
      intros w lw [Hw|[= -> ->]%elem_of_list_singleton]%elem_of_app.
      + assert (w <> v) by (intros ->; by eapply Hpre).
        rewrite <- (Hrows w lw Hw). apply list_eq. intros i. rewrite !slice_lookup. case_decide; [|done].
        apply Hother. destruct (decide (w < v)).
        * left. pose proof (O_mono (S w) v ltac:(lia)). lia.
        * right. pose proof (O_mono (S v) w ltac:(lia)). lia.
      + rewrite Hs. by apply sort_ext.
  Qed.
  Lemma build_ok : exists g, for_each (fun e g => fill_row g (e.1, shuffle_row e.2)) (shuffle m) (make_crs fill ds) = Ok g /\ binv (shuffle m) g.
  Proof.
    assert (Hgen : forall post pre g, pre ++ post ≡ₚ m -> binv pre g ->
      exists g', for_each (fun e g => fill_row g (e.1, shuffle_row e.2)) post g = Ok g' /\ binv (pre ++ post) g').
    { induction post as [|[v l] post IH]; intros pre g Hp Hi; cbn [for_each].
      - rewrite app_nil_r. eauto.
      - assert (Hin : forall e, e ∈ pre ++ (v, l) :: post <-> e ∈ m) by (intros; by rewrite Hp).
        assert (Hkp : NoDup (pre ++ (v, l) :: post).*1) by (rewrite Hp; done).
        destruct (bstep pre g v l Hi) as (g' & E & Hi').
        + apply vmap_find_elem; [done|]. apply Hin. set_solver.
        + intros l' Hl'. rewrite fmap_app in Hkp. apply NoDup_app in Hkp as (_ & Hd & _).
          apply (Hd v); [apply elem_of_list_fmap; by exists (v, l')|]. cbn. by left.
        + intros k l' Hl'. apply Hmx. apply elem_of_list_fmap. exists (k, l'). split; [done|]. apply Hin. set_solver.
        + cbn [fst snd]. rewrite E. cbn [mbind res_bind].
          destruct (IH (pre ++ [(v, l)]) g') as (g'' & E' & Hi''); [by rewrite <- app_assoc|done|].
          exists g''. split; [done|]. by rewrite <- app_assoc in Hi''. }
    apply (Hgen (shuffle m) [] (make_crs fill ds)).
    - apply Hsh.
    - split; cbn [crs_offs crs_adj make_crs].
      + done.
      + rewrite map_length, seq_length. pose proof (last_at (0 :: inclusive_scan 0 ds) 0 ltac:(done)) as H.
        cbn [List.length] in H. rewrite inclusive_scan_length, ds_len in H.
        replace (S (S mx) - 1) with (S mx) in H by lia.
        rewrite offs_lookup in H by (rewrite ds_len; lia). apply (inj Some) in H. symmetry. exact H.
      + intros v l ?%elem_of_nil. done.
  Qed.
  Lemma build_rows g : binv (shuffle m) g ->
    crs_rows g = S mx /\ forall v, v <= mx -> row g v = Ok (sort (default [] (vmap_find v m))).
  Proof.
    intros Hi. split.
    - destruct Hi as [Ho _ _]. unfold crs_rows. rewrite Ho. cbn [List.length]. rewrite inclusive_scan_length, ds_len. lia.
    - intros v Hv. unfold row. rewrite (binv_row _ _ _ Hi Hv). cbn [mbind res_bind]. f_equal.
      destruct (vmap_find v m) as [l|] eqn:E.
      + apply Hi. rewrite (Hsh m). by apply vmap_find_elem.
      + cbn [default]. rewrite O_S by done. rewrite E. cbn. by rewrite Nat.add_0_r, Nat.sub_diag.
  Qed.
End build.

Lemma strict_of_sort l : NoDup l -> StronglySorted lt (sort l).
Proof. intros. apply sorted_nodup_strict; [apply sort_sorted|by apply sort_nodup]. Qed.

Lemma make_crs_graph_ok fill shuffle shuffle_row ud from to :
  (forall x, shuffle x ≡ₚ x) -> (forall x, shuffle_row x ≡ₚ x) -> from <> [] ->
  exists g, makeCrsGraph fill shuffle shuffle_row ud from to = Ok g /\
    crs_rows g = S (foldr Nat.max 0 (map (fun e => Nat.max e.1 e.2) (zip from to))) /\
    forall u, u < crs_rows g -> exists l, row g u = Ok l /\ StronglySorted lt l /\ forall v, v ∈ l <-> listed ud from to u v.
Proof.
  intros Hsh Hsr Hf. unfold makeCrsGraph. destruct from as [|f0 from0]; [done|]. set (from := f0 :: from0) in *.
  pose proof (edges_ok ud (zip from to) [] [] 0 (vinv_nil ud)) as Hv. cbn [app] in Hv.
  destruct (foldl (edge_step ud) ([], 0) (zip from to)) as [m mx] eqn:E. cbn [fst snd] in Hv.
  destruct Hv as [Hk Hs He Hm Hmem].
  assert (Hmx : forall k, k ∈ m.*1 -> k <= mx).
  { intros k ([k' l] & -> & Hin)%elem_of_list_fmap. cbn. apply vmap_find_elem in Hin; [|done].
    destruct (Hs _ _ Hin) as [_ Hne]. destruct l as [|v l]; [done|].
    assert (v ∈ default [] (vmap_find k' m)) as Hvv by (rewrite Hin; by left).
    apply He in Hvv as [Hvv|[_ Hvv]]; apply Hm in Hvv; cbn in Hvv; lia. }
  destruct (build_ok fill m mx Hk Hmx shuffle Hsh shuffle_row Hsr) as (g & -> & Hb).
  destruct (build_rows m mx Hk shuffle Hsh g Hb) as [Hr Hrow].
  exists g. split; [done|]. split.
  - rewrite Hr. f_equal. clear -Hm Hmem.
    assert (Hle : forall es : list (nat * nat), (forall e, e ∈ es -> e.1 <= mx /\ e.2 <= mx) -> foldr Nat.max 0 (map (fun e => Nat.max e.1 e.2) es) <= mx).
    { induction es as [|e es IH]; intros H; cbn [map foldr]; [lia|].
      pose proof (H e ltac:(by left)). specialize (IH ltac:(intros; apply H; by right)). lia. }
    assert (Hge : forall (es : list (nat * nat)) e, e ∈ es -> Nat.max e.1 e.2 <= foldr Nat.max 0 (map (fun e => Nat.max e.1 e.2) es)).
    { induction es as [|e' es IH]; intros e H; [by apply elem_of_nil in H|]. cbn [map foldr].
      apply elem_of_cons in H as [-> |H]; [lia|]. specialize (IH e H). lia. }
    pose proof (Hle _ Hm). destruct Hmem as [[-> ->]|(e & Hin & He)]; [done|].
    specialize (Hge _ e Hin). lia.
  - intros u Hu. rewrite Hr in Hu. eexists. split; [apply Hrow; lia|]. split.
    + apply strict_of_sort. destruct (vmap_find u m) eqn:Ef; [by eapply Hs|constructor].
    + intros v. rewrite sort_elem, He. done.
Qed.

Lemma make_crs_graph_wf fill shuffle shuffle_row ud from to g :
  (forall x, shuffle x ≡ₚ x) -> (forall x, shuffle_row x ≡ₚ x) ->
  makeCrsGraph fill shuffle shuffle_row ud from to = Ok g ->
  well_formed g /\ (ud = true -> Graph_spec.symmetric g).
Proof.
  intros Hsh Hsr E. destruct from as [|f0 from0] eqn:Ef.
  - cbn in E. injection E as <-. split.
    + split; [cbn; lia|]. intros u Hu. cbn in Hu. lia.
    + intros _ u v (l & Hl & _). apply row_lt in Hl. cbn in Hl. lia.
  - rewrite <- Ef in E. assert (from <> []) as Hne by (by subst).
    destruct (make_crs_graph_ok fill shuffle shuffle_row ud from to Hsh Hsr Hne) as (g' & E' & Hr & Hrows).
    rewrite E in E'. injection E' as <-.
    assert (Hmax : forall u v, (u, v) ∈ zip from to -> u < crs_rows g /\ v < crs_rows g).
    { intros u v Huv. rewrite Hr. clear -Huv. induction (zip from to) as [|e es IH]; [by apply elem_of_nil in Huv|].
      cbn [map foldr]. apply elem_of_cons in Huv as [<- |Huv]; cbn; [lia|]. apply IH in Huv. lia. }
    assert (Hl : forall u v, listed ud from to u v -> u < crs_rows g /\ v < crs_rows g).
    { intros u v [H|[_ H]]; apply Hmax in H; tauto. }
    split.
    + split.
      * destruct (crs_offs g) eqn:Eo; [|cbn; lia]. unfold crs_rows in Hr. rewrite Eo in Hr. cbn in Hr. lia.
      * intros u Hu. destruct (Hrows u Hu) as (l & Hrow & _ & Hin). exists l. split; [done|].
        apply Forall_forall. intros v Hv. apply Hin, Hl in Hv. tauto.
    + intros -> u v (l & Hrow & Hv). pose proof (row_lt _ _ _ Hrow) as Hu.
      destruct (Hrows u Hu) as (l' & Hrow' & _ & Hin). rewrite Hrow in Hrow'. injection Hrow' as <-.
      apply Hin in Hv. destruct (Hl _ _ Hv) as [_ Hvr]. destruct (Hrows v Hvr) as (lv & Hrv & _ & Hinv).
      exists lv. split; [done|]. apply Hinv. unfold listed in *. naive_solver.
Qed.
Lemma edge_listed fill shuffle shuffle_row ud from to g u v :
  (forall x, shuffle x ≡ₚ x) -> (forall x, shuffle_row x ≡ₚ x) ->
  makeCrsGraph fill shuffle shuffle_row ud from to = Ok g ->
  edge g u v <-> listed ud from to u v.
Proof.
  intros Hsh Hsr E. destruct from as [|f0 from0] eqn:Ef.
  - cbn in E. injection E as <-. split.
    + intros (l & Hl & _). apply row_lt in Hl. cbn in Hl. lia.
    + unfold listed. cbn. rewrite !elem_of_nil. tauto.
  - rewrite <- Ef in E |- *. assert (from <> []) as Hne by (by subst). clear Ef.
    destruct (make_crs_graph_ok fill shuffle shuffle_row ud from to Hsh Hsr Hne) as (g' & E' & Hr & Hrows).
    rewrite E in E'. injection E' as <-. split.
    + intros (l & Hl & Hv). destruct (Hrows u (row_lt _ _ _ Hl)) as (l' & Hl' & _ & Hin).
      rewrite Hl in Hl'. injection Hl' as <-. by apply Hin.
    + intros H. assert (u < crs_rows g) as Hu.
      { rewrite Hr. destruct H as [H|[_ H]]; clear -H; induction (zip from to) as [|e es IH]; try (by apply elem_of_nil in H);
        cbn [map foldr]; apply elem_of_cons in H as [<- |H]; cbn; try lia; apply IH in H; lia. }
      destruct (Hrows u Hu) as (l & Hl & _ & Hin). exists l. split; [done|]. by apply Hin.
Qed.
Lemma pipeline_ok fill shuffle shuffle_row from to :
  (forall x, shuffle x ≡ₚ x) -> (forall x, shuffle_row x ≡ₚ x) ->
  exists comps, (makeCrsGraph fill shuffle shuffle_row true from to ≫= getComponentsUndirected) = Ok comps /\
    NoDup (concat comps) /\
    (forall u v, listed true from to u v -> u ∈ concat comps /\ v ∈ concat comps) /\
    forall u v, u ∈ concat comps -> v ∈ concat comps ->
      (exists c, c ∈ comps /\ u ∈ c /\ v ∈ c) <-> rtc (listed true from to) u v.
Proof.
  intros Hsh Hsr. 
  assert (exists g, makeCrsGraph fill shuffle shuffle_row true from to = Ok g) as (g & Eg).
  { destruct from; [by eexists|]. destruct (make_crs_graph_ok fill shuffle shuffle_row true (n :: from) to Hsh Hsr ltac:(done)) as (g & E & _). eauto. }
  rewrite Eg. cbn [mbind res_bind]. destruct (make_crs_graph_wf _ _ _ _ _ _ _ Hsh Hsr Eg) as [Hwf Hsym].
  destruct (components_ok g Hwf (Hsym eq_refl)) as (comps & -> & Hp & _ & Hc).
  exists comps. split; [done|]. split; [rewrite Hp; apply NoDup_seq|]. split.
  { intros u v H. apply (proj2 (edge_listed _ _ _ _ _ _ _ u v Hsh Hsr Eg)), (edge_range _ _ _ Hwf) in H as [Hu Hv].
    rewrite Hp, !elem_of_seq. lia. }
  intros u v Hu Hv. rewrite Hp, elem_of_seq in Hu. rewrite Hp, elem_of_seq in Hv.
  rewrite (Hc u v) by lia. split; intros H.
  - eapply rtc_subrel; [|exact H]. intros a b. by apply (proj1 (edge_listed _ _ _ _ _ _ _ a b Hsh Hsr Eg)).
  - eapply rtc_subrel; [|exact H]. intros a b. by apply (proj2 (edge_listed _ _ _ _ _ _ _ a b Hsh Hsr Eg)).
Qed.
