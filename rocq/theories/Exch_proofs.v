(** Sums over all ranks by an export: used for C74 and C75. *)
From Verif Require Import Base StdAlgo Ownership_spec Ownership_proofs ImportExport_spec ImportExport_proofs NodeVals_model NodeVals_spec NodeVals_proofs.
Section exch.
  Context {F : Type} (zero : F) (add : F -> F -> F).
  Context (A0 : forall x, add zero x = x) (AC : forall x y, add x y = add y x) (AA : forall x y z, add x (add y z) = add (add x y) z).
  Context (counts : list nat) (shareds : list (list nat)) (ins : list (rank_in F)) (HT : tables counts shareds) (Hins : length ins = length counts).
  Notation fsum := (fsum zero add).
  Lemma export_total sents a g before after old :
    (forall b c sh r, counts !! b = Some c -> shareds !! b = Some sh -> ins !! b = Some r -> exists ar, sents !! b = Some ar /\ forall j, j < length sh -> ar !! j = Some (fsum (values_at (ri_border r ++ ri_interior r) (c + j)))) ->
    exported add counts shareds sents a before after -> owns counts a g ->
    before !! (g - first_owned counts a) = Some (add old (fsum (made counts shareds ins a g))) ->
    after !! (g - first_owned counts a) = Some (add old (fsum (contributed counts shareds ins g))).
  Proof using A0 AC AA HT Hins.
    intros Hs (_ & He & _) Ho Hb. destruct (He g _ Ho Hb) as (l & Hl & ->). rewrite (sent_map counts shareds ins HT Hins fsum sents g Hs) in Hl. f_equal.
    rewrite (value_sum zero add A0 AC AA counts shareds ins HT Hins a g l _ Ho Hl), (total_value zero add A0 AC AA counts shareds ins HT Hins a g Ho). by rewrite AA.
  Qed.
End exch.
Section local.
  Context (counts : list nat) (shareds : list (list nat)) (HT : tables counts shareds).
  (** Every index of a rank is an index owned by some rank. *)
  Lemma local_cases b c sh g l : counts !! b = Some c -> shareds !! b = Some sh -> local_of counts shareds b g = Some l ->
    (owns counts b g /\ l = g - first_owned counts b /\ l < c) \/ (g ∈ sh /\ l = c + entry_of sh g /\ entry_of sh g < length sh /\ exists a, owns counts a g).
  Proof using HT.
    intros Hc Hsh. unfold local_of. rewrite Hc, Hsh. cbn [mbind option_bind]. destruct (decide (first_owned counts b <= g < first_owned counts b + c)) as [Hd|Hd].
    - intros [= <-]. left. split; [by exists c|]. split; [done|lia].
    - destruct (decide (g ∈ sh)) as [Hg|]; [|done]. intros [= <-]. right. destruct HT as [_ HS]. destruct (HS b sh Hsh) as [Hn Hg']. split; [done|]. split; [done|]. split; [by apply entry_lt|]. by apply Hg'.
  Qed.
  (** ... and every local number below c + s belongs to an index. *)
  Lemma local_onto b c sh l : counts !! b = Some c -> shareds !! b = Some sh -> l < c + length sh -> exists g, local_of counts shareds b g = Some l.
  Proof using HT.
    intros Hc Hsh Hl. destruct (decide (l < c)) as [H|H].
    - exists (first_owned counts b + l). unfold local_of. rewrite Hc, Hsh. cbn [mbind option_bind]. rewrite decide_True by lia. f_equal. lia.
    - destruct HT as [_ HS]. destruct (HS b sh Hsh) as [Hn Hg]. destruct (lookup_lt_is_Some_2 (sort sh) (l - c)) as [g Hgl]; [rewrite sort_length; lia|].
      exists g. assert (Hin : g ∈ sh) by (apply sort_elem; by eapply elem_of_list_lookup_2). rewrite (local_shared counts shareds HT b c sh g Hc Hsh Hin). rewrite (entry_of_sorted _ _ _ Hn Hgl). f_equal. lia.
  Qed.
  Lemma local_inj b g h l : local_of counts shareds b g = Some l -> local_of counts shareds b h = Some l -> g = h.
  Proof using HT.
    intros H1 H2. destruct (counts !! b) as [c|] eqn:Hc; [|unfold local_of in H1; by rewrite Hc in H1]. destruct (shareds !! b) as [sh|] eqn:Hsh; [|unfold local_of in H1; by rewrite Hc, Hsh in H1].
    destruct HT as [_ HS]. destruct (HS b sh Hsh) as [Hn _].
    destruct (local_cases b c sh g l Hc Hsh H1) as [((c1 & Hc1 & R1) & E1 & L1)|(G1 & E1 & L1 & _)], (local_cases b c sh h l Hc Hsh H2) as [((c2 & Hc2 & R2) & E2 & L2)|(G2 & E2 & L2 & _)]; [lia..|].
    assert (Ee : entry_of sh g = entry_of sh h) by lia. apply sort_elem in G1, G2. apply elem_of_list_lookup in G1 as [i Hi], G2 as [j Hj]. rewrite (entry_of_sorted _ _ _ Hn Hi), (entry_of_sorted _ _ _ Hn Hj) in Ee. congruence.
  Qed.
  Lemma local_rank b g l : local_of counts shareds b g = Some l -> exists c sh, counts !! b = Some c /\ shareds !! b = Some sh.
  Proof using. unfold local_of. destruct (counts !! b) as [c|]; [|done]. destruct (shareds !! b) as [sh|]; [|done]. by exists c, sh. Qed.
End local.
