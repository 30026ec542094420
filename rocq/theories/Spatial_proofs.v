(** C33: proofs. *)
From Coq Require Import QArith Qround Qabs Lqa.
From Verif Require Import Base StdAlgo Merge_proofs Spatial_model Spatial_spec.

Lemma lround_bounds q : (q - (1 # 2) <= inject_Z (lround q) <= q + (1 # 2))%Q.
Proof.
  unfold lround. destruct (Qle_bool 0 q) eqn:E.
  - pose proof (Qfloor_le (q + (1 # 2))%Q). pose proof (Qlt_floor (q + (1 # 2))%Q) as H1. rewrite inject_Z_plus in H1. split; [|done].
    change (inject_Z 1) with 1%Q in H1. lra.
  - pose proof (Qfloor_le (- q + (1 # 2))%Q). pose proof (Qlt_floor (- q + (1 # 2))%Q) as H1. rewrite inject_Z_plus in H1. rewrite inject_Z_opp. change (inject_Z 1) with 1%Q in H1. lra.
Qed.
Lemma lround_near a b : (Qabs (a - b) < 1)%Q -> (-1 <= lround a - lround b <= 1)%Z.
Proof.
  intros H. apply Qabs_Qlt_condition in H. pose proof (lround_bounds a). pose proof (lround_bounds b).
  assert (H2 : (inject_Z (lround a - lround b) < inject_Z 2)%Q). { unfold Z.sub. rewrite inject_Z_plus, inject_Z_opp. change (inject_Z 2) with 2%Q. lra. }
  assert (H3 : (inject_Z (-2) < inject_Z (lround a - lround b))%Q). { unfold Z.sub. rewrite inject_Z_plus, inject_Z_opp. change (inject_Z (-2)) with (-2)%Q. lra. }
  rewrite <- Zlt_Qlt in H2, H3. lia.
Qed.
Lemma lround_far a b : (-1 <= lround a - lround b <= 1)%Z -> (Qabs (a - b) <= 2)%Q.
Proof.
  intros H. pose proof (lround_bounds a). pose proof (lround_bounds b).
  assert (H2 : (inject_Z (lround a - lround b) <= inject_Z 1)%Q) by (rewrite <- Zle_Qle; lia).
  assert (H3 : (inject_Z (-1) <= inject_Z (lround a - lround b))%Q) by (rewrite <- Zle_Qle; lia).
  unfold Z.sub in H2, H3. rewrite inject_Z_plus, inject_Z_opp in H2, H3. change (inject_Z 1) with 1%Q in H2. change (inject_Z (-1)) with (-1)%Q in H3. apply Qabs_Qle_condition. lra.
Qed.

(** Offsets. *)
Lemma offsets_elem n o : o ∈ offsets n <-> length o = n /\ Forall (fun z => -1 <= z <= 1)%Z o.
Proof.
  revert o. induction n as [|n IH]; intros o; cbn [offsets].
  - rewrite elem_of_list_singleton. split; [intros ->; by split|]. intros [H _]. by destruct o.
  - rewrite elem_of_concat. split.
    + intros (l & Ho & Hl). apply (elem_of_list_fmap (fun o => map (cons o) (offsets n))) in Hl as (z & -> & Hz). apply (elem_of_list_fmap (cons z)) in Ho as (o' & -> & Ho). apply IH in Ho as [Ho1 Ho2].
      split; [cbn; by rewrite Ho1|]. constructor; [|done]. rewrite !elem_of_cons, elem_of_nil in Hz. lia.
    + intros [Hl Hf]. destruct o as [|z o]; [done|]. inversion Hf as [|? ? Hz Hf']; subst. exists (map (cons z) (offsets n)). split.
      * apply (elem_of_list_fmap_1 (cons z)). apply IH. split; [by injection Hl|done].
      * apply (elem_of_list_fmap_1 (fun o => map (cons o) (offsets n))). rewrite !elem_of_cons, elem_of_nil. lia.
Qed.
Lemma offsets_nodup n : NoDup (offsets n).
Proof.
  induction n as [|n IH]; [apply NoDup_singleton|]. cbn [offsets map concat]. assert (Hc : forall z, NoDup (map (cons z) (offsets n))) by (intros z; apply (NoDup_fmap_2 (cons z)); done).
  assert (Hd : forall z z' o, o ∈ map (cons z) (offsets n) -> o ∈ map (cons z') (offsets n) -> z = z').
  { intros z z' o H1 H2. apply (elem_of_list_fmap (cons z)) in H1 as (a & -> & _). apply (elem_of_list_fmap (cons z')) in H2 as (b & [= ->] & _). done. }
  rewrite app_nil_r. apply NoDup_app. split; [apply Hc|]. split; [|apply NoDup_app; split; [apply Hc|split; [|apply Hc]]].
  - intros o H1 H2. apply elem_of_app in H2 as [H2|H2]; by pose proof (Hd _ _ _ H1 H2).
  - intros o H1 H2. by pose proof (Hd _ _ _ H1 H2).
Qed.

Section table.
  Context {T : Type} (quot : Q -> Q -> Q -> Q).
  Notation table := (table T).
  Notation snap := (snapToGrid quot).
  Lemma put_look k v (m : list (key * list (point * T))) k' : look k' (put k v m) = look k' m ++ (if decide (k' = k) then [v] else []).
  Proof.
    induction m as [|[k0 vs] m IH]; cbn [put look].
    - case_bool_decide; case_decide; try done; congruence.
    - case_bool_decide as E.
      + subst k0. cbn [look]. case_bool_decide as E2; case_decide; try congruence; by rewrite ?app_nil_r.
      + cbn [look]. case_bool_decide as E2; [|done]. subst k'. rewrite decide_False by congruence. by rewrite app_nil_r.
  Qed.
  Lemma put_concat k v (m : list (key * list (point * T))) : concat (put k v m).*2 ≡ₚ v :: concat m.*2.
  Proof.
    induction m as [|[k0 vs] m IH]; [done|]. cbn [put]. case_bool_decide as E.
    - cbn. rewrite <- app_assoc. cbn. by rewrite <- Permutation_middle.
    - cbn. change (concat _) with (concat (put k v m).*2) at 1. cbn in IH. rewrite IH. by rewrite <- Permutation_middle.
  Qed.
  Lemma insert_ok (t : table) l : let t' := insert_all quot t l in
    t_origin t' = t_origin t /\ t_dx t' = t_dx t /\ t_size t' = t_size t + length l /\ all_values t' ≡ₚ all_values t ++ l /\
    forall k, look k (t_map t') = look k (t_map t) ++ List.filter (fun v => bool_decide (snap t v.1 = k)) l.
  Proof.
    cbv zeta. revert t. induction l as [|v l IH]; intros t.
    - cbn. rewrite app_nil_r. split; [done|]. split; [done|]. split; [lia|]. split; [done|]. intros k. by rewrite app_nil_r.
    - change (insert_all quot t (v :: l)) with (insert_all quot (emplace quot t v.1 v.2) l). destruct (IH (emplace quot t v.1 v.2)) as (H1 & H2 & H3 & H4 & H5).
      rewrite H1, H2, H3. split; [done|]. split; [done|]. split; [cbn; lia|]. split.
      + rewrite H4. unfold all_values at 1. cbn [t_map emplace]. rewrite put_concat. cbn [app]. rewrite <- Permutation_middle. by destruct v.
      + intros k. rewrite H5. cbn [t_map emplace]. rewrite put_look, <- app_assoc. f_equal. cbn [List.filter]. change (snap (emplace quot t v.1 v.2)) with (snap t). case_decide as E; case_bool_decide as E2; try congruence; [|done].
        cbn [app]. by destruct v.
  Qed.
  Definition adjacent (k0 k : key) : bool := bool_decide (length k = length k0 /\ Forall (fun z => -1 <= z <= 1)%Z (zip_with Z.sub k k0)).
  Lemma zip_add_sub (k0 o : key) : length o = length k0 -> zip_with Z.sub (zip_with Z.add k0 o) k0 = o.
  Proof. revert o. induction k0 as [|z k0 IH]; intros [|y o] H; try done. cbn. rewrite IH by (by injection H). f_equal. lia. Qed.
  Lemma zip_sub_add (k0 k : key) : length k = length k0 -> zip_with Z.add k0 (zip_with Z.sub k k0) = k.
  Proof. revert k. induction k0 as [|z k0 IH]; intros [|y o] H; try done. cbn. rewrite IH by (by injection H). f_equal. lia. Qed.
  Lemma filter_union (k0 : key) (l : list (point * T)) (f : point * T -> key) : 
    concat (map (fun o => List.filter (fun v => bool_decide (f v = zip_with Z.add k0 o)) l) (offsets (length k0))) ≡ₚ List.filter (fun v => adjacent k0 (f v)) l.
  Proof.
    induction l as [|v l IH].
    - cbn. induction (offsets (length k0)) as [|o os IHo]; [done|]. cbn. done.
    - cbn [List.filter]. assert (Hsplit : forall os, NoDup os -> concat (map (fun o => if bool_decide (f v = zip_with Z.add k0 o) then v :: List.filter (fun v => bool_decide (f v = zip_with Z.add k0 o)) l else List.filter (fun v => bool_decide (f v = zip_with Z.add k0 o)) l) os) ≡ₚ
        List.filter (fun _ => true) (concat (map (fun o => if bool_decide (f v = zip_with Z.add k0 o) then [v] else []) os)) ++ concat (map (fun o => List.filter (fun v => bool_decide (f v = zip_with Z.add k0 o)) l) os)).
      { intros os _. rewrite filter_all by done. induction os as [|o os IHo]; [done|]. cbn [map concat]. rewrite IHo. case_bool_decide; cbn [app]; [constructor|]; rewrite !app_assoc; [apply Permutation_app_tail; apply Permutation_app_comm|apply Permutation_app_tail; apply Permutation_app_comm]. }
      rewrite Hsplit by apply offsets_nodup. rewrite IH, filter_all by done. clear Hsplit IH.
      assert (E : concat (map (fun o => if bool_decide (f v = zip_with Z.add k0 o) then [v] else []) (offsets (length k0))) ≡ₚ if adjacent k0 (f v) then [v] else []); [|rewrite E; by destruct (adjacent k0 (f v))].
      assert (Hne : forall os, (forall o, o ∈ os -> f v <> zip_with Z.add k0 o) -> concat (map (fun o => if bool_decide (f v = zip_with Z.add k0 o) then [v] else []) os) = []).
      { induction os as [|o os IH]; intros H; [done|]. cbn. rewrite bool_decide_eq_false_2 by (apply H; left). apply IH. intros o' Ho. apply H. by right. }
      unfold adjacent. case_bool_decide as Ha.
      + destruct Ha as [Hl Hf]. assert (Hin : zip_with Z.sub (f v) k0 ∈ offsets (length k0)) by (apply offsets_elem; split; [rewrite zip_with_length; lia|done]).
        pose proof (offsets_nodup (length k0)) as Hnd. assert (Hlen : forall o, o ∈ offsets (length k0) -> length o = length k0) by (intros o Ho; by apply offsets_elem in Ho as [? _]).
        apply elem_of_list_split in Hin as (o1 & o2 & Eo). rewrite Eo in *. rewrite map_app, concat_app. cbn [map concat]. rewrite bool_decide_eq_true_2 by (by rewrite zip_sub_add).
        apply NoDup_app in Hnd as (_ & Hd & Hnd). apply NoDup_cons in Hnd as [Hn _]. rewrite !Hne; [done| |].
        * intros o Ho Ef. apply Hn. rewrite Ef, zip_add_sub; [done|]. apply Hlen, elem_of_app. right. by right.
        * intros o Ho Ef. apply (Hd o Ho). rewrite Ef, zip_add_sub; [left|]. apply Hlen, elem_of_app. by left.
      + rewrite Hne; [done|]. intros o Ho Ef. apply offsets_elem in Ho as [Ho Hf]. apply Ha. rewrite Ef. rewrite zip_add_sub by done. split; [rewrite zip_with_length; lia|done].
  Qed.
  Lemma proximate_perm (t : table) l p : t_map t = [] -> length (snap t p) = length p ->
    proximate quot (insert_all quot t l) p ≡ₚ List.filter (fun v => adjacent (snap t p) (snap t v.1)) l.
  Proof.
    intros Ht Hl. destruct (insert_ok t l) as (H1 & H2 & _ & _ & H5). unfold proximate. assert (E : snap (insert_all quot t l) p = snap t p) by (unfold snapToGrid; by rewrite H1, H2). rewrite E.
    rewrite <- (filter_union (snap t p) l (fun v => snap t v.1)), Hl. rewrite (map_ext _ (fun o => List.filter (fun v => bool_decide (snap t v.1 = zip_with Z.add (snap t p) o)) l)); [done|]. intros o. rewrite H5, Ht. done.
  Qed.
  Lemma snap_lookup (t : table) p i : snap t p !! i = match p !! i, t_origin t !! i, t_dx t !! i with Some x, Some x0, Some d => Some (lround (quot x x0 d)) | _, _, _ => None end.
  Proof.
    unfold snapToGrid. rewrite (list_lookup_fmap (fun x => lround (quot x.1 x.2.1 x.2.2))), !lookup_zip_with. destruct (p !! i), (t_origin t !! i), (t_dx t !! i); reflexivity.
  Qed.
  Lemma snap_length (t : table) p : length (t_origin t) = length p -> length (t_dx t) = length p -> length (snap t p) = length p.
  Proof. intros H1 H2. unfold snapToGrid. rewrite map_length, !zip_with_length. lia. Qed.
  Lemma adjacent_iff (t : table) x y : length (t_origin t) = length x -> length (t_dx t) = length x -> length y = length x ->
    adjacent (snap t x) (snap t y) = true <-> forall i a b x0 d, x !! i = Some a -> y !! i = Some b -> t_origin t !! i = Some x0 -> t_dx t !! i = Some d -> (-1 <= lround (quot b x0 d) - lround (quot a x0 d) <= 1)%Z.
  Proof.
    intros H1 H2 H3. unfold adjacent. rewrite bool_decide_eq_true, !snap_length by congruence. rewrite Forall_lookup. split.
    - intros [_ H] i a b x0 d Ha Hb Hx Hd. apply (H i). rewrite lookup_zip_with, !snap_lookup, Ha, Hb, Hx, Hd. done.
    - intros H. split; [done|]. intros i z Hz. apply lookup_zip_with_Some in Hz as (u & w & -> & Hu & Hw). rewrite snap_lookup in Hu, Hw.
      destruct (y !! i) as [b|] eqn:Eb, (t_origin t !! i) as [x0|] eqn:Ex, (t_dx t !! i) as [d|] eqn:Ed, (x !! i) as [a|] eqn:Ea; try done. injection Hu as <-. injection Hw as <-. by eapply H.
  Qed.
  Lemma quot_sub (a b x0 d : Q) : ~ d == 0 -> ((a - x0) / d - (b - x0) / d == (a - b) / d)%Q.
  Proof. intros H. field. done. Qed.
  Lemma quot_lt (a f d : Q) : (0 < d -> Qabs a < f * d -> Qabs (a / d) < f)%Q.
  Proof.
    intros Hd H. assert (E : (Qabs (a / d) == Qabs a / d)%Q). { unfold Qdiv. rewrite Qabs_Qmult. rewrite (Qabs_pos (/ d)); [done|]. apply Qlt_le_weak, Qinv_lt_0_compat, Hd. }
    rewrite E. by apply Qlt_shift_div_r.
  Qed.
  Lemma quot_le (a f d : Q) : (0 < d -> Qabs (a / d) <= f -> Qabs a <= f * d)%Q.
  Proof.
    intros Hd H. assert (E : (Qabs a == Qabs (a / d) * d)%Q). { unfold Qdiv. rewrite Qabs_Qmult, (Qabs_pos (/ d)) by (apply Qlt_le_weak, Qinv_lt_0_compat, Hd). field. intros E. rewrite E in Hd. by apply Qlt_irrefl in Hd. }
    rewrite E. apply Qmult_le_compat_r; [done|]. by apply Qlt_le_weak.
  Qed.
  Lemma lround_err (a b a' b' eps : Q) : (Qabs (a' - a) <= eps -> Qabs (b' - b) <= eps -> Qabs (a - b) < 1 - 2 * eps -> Qabs (a' - b') < 1)%Q.
  Proof. rewrite !Qabs_Qle_condition, !Qabs_Qlt_condition. lra. Qed.
  Lemma lround_err2 (a b a' b' eps : Q) : (Qabs (a' - a) <= eps -> Qabs (b' - b) <= eps -> Qabs (a' - b') <= 2 -> Qabs (a - b) <= 2 + 2 * eps)%Q.
  Proof. rewrite !Qabs_Qle_condition. lra. Qed.
  Lemma close_adjacent eps (t : table) x y : length (t_origin t) = length x -> length (t_dx t) = length x -> Forall (fun d => 0 < d)%Q (t_dx t) ->
    accurate quot eps (t_origin t) (t_dx t) x -> accurate quot eps (t_origin t) (t_dx t) y -> closer (1 - 2 * eps) (t_dx t) y x -> adjacent (snap t x) (snap t y) = true.
  Proof.
    intros H1 H2 Hd Hx Hy [Hl Hc]. apply adjacent_iff; [done..|]. intros i a b x0 d Ha Hb H0 Hdi. apply lround_near. pose proof (proj1 (Forall_lookup _ _) Hd i d Hdi) as Hp. cbn in Hp.
    apply (lround_err ((b - x0) / d) ((a - x0) / d) _ _ eps); [by eapply Hy|by eapply Hx|]. rewrite quot_sub by (intros E; rewrite E in Hp; by apply Qlt_irrefl in Hp). apply quot_lt; [done|]. by eapply Hc.
  Qed.
  Lemma adjacent_close eps (t : table) x y : length (t_origin t) = length x -> length (t_dx t) = length x -> length y = length x -> Forall (fun d => 0 < d)%Q (t_dx t) ->
    accurate quot eps (t_origin t) (t_dx t) x -> accurate quot eps (t_origin t) (t_dx t) y -> adjacent (snap t x) (snap t y) = true -> 
    forall i a b d, x !! i = Some a -> y !! i = Some b -> t_dx t !! i = Some d -> (Qabs (b - a) <= (2 + 2 * eps) * d)%Q.
  Proof.
    intros H1 H2 Hl Hd Hx Hy H. pose proof (proj1 (adjacent_iff t x y H1 H2 Hl) H) as HA. intros i a b d Ha Hb Hdi. destruct (lookup_lt_is_Some_2 (t_origin t) i) as [x0 H0]; [rewrite H1; by eapply lookup_lt_Some|].
    pose proof (proj1 (Forall_lookup _ _) Hd i d Hdi) as Hp. cbn in Hp. apply quot_le; [done|]. rewrite <- (quot_sub b a x0 d) by (intros E; rewrite E in Hp; by apply Qlt_irrefl in Hp).
    eapply lround_err2; [by eapply Hy|by eapply Hx|]. apply lround_far. by eapply HA.
  Qed.
End table.

Lemma make_dx {T} m dx o : (0 < m)%Q -> cell_size m dx (t_dx (make_table (T := T) m dx o)) /\ Forall (fun d => 0 < d)%Q (t_dx (make_table (T := T) m dx o)).
Proof.
  intros Hm. cbn. induction dx as [|d dx [IH1 IH2]]; [by repeat constructor|]. cbn [map]. destruct (Qle_bool m (Qabs d)) eqn:E.
  - apply Qle_bool_iff in E. split; constructor; try done; [split; [by left|split; [apply Qle_refl|done]]|]. by eapply Qlt_le_trans.
  - assert (Hlt : (Qabs d < m)%Q). { apply Qnot_le_lt. intros H. apply Qle_bool_iff in H. congruence. } split; constructor; try done. split; [by right|]. split; [by apply Qlt_le_weak|apply Qle_refl].
Qed.
Lemma filter_split_le {A} (f : A -> bool) l : exists r, l ≡ₚ List.filter f l ++ r.
Proof. induction l as [|a l [r IH]]; [by exists []|]. cbn. destruct (f a); [exists r; cbn; by constructor|]. exists (a :: r). rewrite <- Permutation_middle. by constructor. Qed.
