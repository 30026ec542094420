(** Proofs for C64: reading a file. *)
From Coq Require Import QArith Lqa.
From Verif Require Import Base StdAlgo Elem_model Mesh_model Mesh_proofs Merge_model Merge2_proofs Gmsh_model Gmsh_spec Gmsh_proofs.
Local Open Scope nat_scope.

(** [p] reads [w] and returns [a]. *)
Definition reads {A} (p : parser A) (w : list token) (a : A) : Prop := forall ts, p (w ++ ts) = Ok (a, ts).
Lemma reads_ret {A} (a : A) : reads (ret a) [] a.
Proof. by intros ts. Qed.
Lemma reads_lift {A} (a : A) : reads (lift (Ok a)) [] a.
Proof. by intros ts. Qed.
Lemma reads_then {A B} (p : parser A) (q : A -> parser B) w w' a b : reads p w a -> reads (q a) w' b -> reads (andthen p q) (w ++ w') b.
Proof. intros Hp Hq ts. unfold andthen. rewrite <- app_assoc, Hp, bind_ok. apply Hq. Qed.
Lemma reads_then0 {A B} (p : parser A) (q : A -> parser B) w a b : reads p [] a -> reads (q a) w b -> reads (andthen p q) w b.
Proof. intros Hp Hq. apply (reads_then p q [] w a b Hp Hq). Qed.
Lemma reads_nat n : reads get_nat [num n] n.
Proof. intros ts. unfold get_nat, num. cbn [app]. destruct (Z.leb_spec 0 (Z.of_nat n)); [|lia]. by rewrite Nat2Z.id. Qed.
Lemma reads_int z : reads get_int [Int z] z.
Proof. by intros ts. Qed.
Lemma reads_val x : reads get_val [Val x] x.
Proof. by intros ts. Qed.
Lemma reads_times {A} (p : parser A) (w : A -> list token) l n : (forall a, a ∈ l -> reads p (w a) a) -> n = length l -> reads (times n p) (concat (map w l)) l.
Proof.
  intros Hp ->. induction l as [|a l IH]; [apply reads_ret|]. cbn [length times map concat]. eapply reads_then; [apply Hp; left|].
  rewrite <- (app_nil_r (concat _)). eapply reads_then; [apply IH; intros b Hb; apply Hp; by right|apply reads_ret].
Qed.
Lemma concat_single {A B} (f : A -> B) l : concat (map (fun a => [f a]) l) = map f l.
Proof. induction l as [|a l IH]; [done|]. cbn. by rewrite IH. Qed.
Lemma reads_times1 {A} (p : parser A) (w : A -> token) l n : (forall a, reads p [w a] a) -> n = length l -> reads (times n p) (map w l) l.
Proof. intros Hp Hn. rewrite <- concat_single. by apply reads_times. Qed.
Lemma reads_copy_n {A} (p : parser A) (w : A -> token) l n : (forall a, reads p [w a] a) -> n = length l -> l <> [] -> reads (copy_n p n) (map w l) l.
Proof. intros Hp -> Hne. unfold copy_n. destruct l; [done|]. by apply reads_times1. Qed.
(** Loops: [f] takes the state from [s] to [g s x] when it reads [w x]. *)
Lemma reads_iterate {S X} (f : S -> parser S) (w : X -> list token) (R : list X -> S -> Prop) l s :
  (forall l1 x l2 s, l = l1 ++ x :: l2 -> R l1 s -> exists s', reads (f s) (w x) s' /\ R (l1 ++ [x]) s') -> R [] s ->
  exists s', reads (iterate (length l) f s) (concat (map w l)) s' /\ R l s'.
Proof.
  intros Hf. assert (H : forall l2 l1 s, l = l1 ++ l2 -> R l1 s -> exists s', reads (iterate (length l2) f s) (concat (map w l2)) s' /\ R l s').
  { induction l2 as [|x l2 IH]; intros l1 s1 Hl Hs.
    - exists s1. split; [apply reads_ret|]. rewrite app_nil_r in Hl. by rewrite Hl.
    - destruct (Hf l1 x l2 s1 Hl Hs) as (s2 & H1 & R1). destruct (IH (l1 ++ [x]) s2) as (s3 & H2 & R2); [by rewrite <- app_assoc|done|].
      exists s3. split; [cbn [length iterate map concat]; by eapply reads_then|done]. }
  by apply (H l []).
Qed.
Lemma reads_iterate_list {S X} (f : X -> S -> parser S) (w : X -> list token) (R : list X -> S -> Prop) l s :
  (forall l1 x l2 s, l = l1 ++ x :: l2 -> R l1 s -> exists s', reads (f x s) (w x) s' /\ R (l1 ++ [x]) s') -> R [] s ->
  exists s', reads (iterate_list l f s) (concat (map w l)) s' /\ R l s'.
Proof.
  intros Hf. assert (H : forall l2 l1 s, l = l1 ++ l2 -> R l1 s -> exists s', reads (iterate_list l2 f s) (concat (map w l2)) s' /\ R l s').
  { induction l2 as [|x l2 IH]; intros l1 s1 Hl Hs.
    - exists s1. split; [apply reads_ret|]. rewrite app_nil_r in Hl. by rewrite Hl.
    - destruct (Hf l1 x l2 s1 Hl Hs) as (s2 & H1 & R1). destruct (IH (l1 ++ [x]) s2) as (s3 & H2 & R2); [by rewrite <- app_assoc|done|].
      exists s3. split; [cbn [iterate_list map concat]; by eapply reads_then|done]. }
  by apply (H l []).
Qed.
Lemma reads_skip s w : (forall s', Name s' ∈ w -> s' <> s) -> reads (skip_past s) (w ++ [Name s]) tt.
Proof.
  intros Hw ts. induction w as [|t w IH]; cbn [app].
  - cbn [skip_past]. by rewrite decide_True.
  - assert (IH' := IH ltac:(intros s' Hs; apply Hw; by right)). destruct t as [s'| |]; cbn [skip_past]; [|done..]. rewrite decide_False; [done|]. intros <-. apply (Hw s ltac:(left)). done.
Qed.
Lemma reads_skip1 s : reads (skip_past s) [Name s] tt.
Proof. apply (reads_skip s []). intros s' H. by apply elem_of_nil in H. Qed.

(** ** Format and entities *)
Lemma reads_format v n : (4 <= v < 5)%Q -> reads parse_format [Name MeshFormat; Val v; num 0; num n; Name EndMeshFormat] tt.
Proof.
  intros Hv. unfold parse_format. eapply (reads_then _ _ [_]); [apply reads_skip1|]. eapply (reads_then _ _ [_]); [apply reads_val|]. eapply (reads_then _ _ [_]); [apply (reads_nat 0)|]. eapply (reads_then _ _ [_]); [apply reads_nat|].
  apply (reads_then _ _ [_] [] tt); [apply reads_skip1|]. replace (Qle_bool 4 v) with true by (symmetry; apply Qle_bool_iff; lra). replace (negb (Qle_bool 5 v)) with true by (symmetry; apply Qle_bool_neg; lra). apply reads_lift.
Qed.
(** The map of a list of entities. *)
Definition ent_map (es : list entity) (m : dmap nat) : Prop := StronglySorted lt m.*1 /\ forall t k, dm_find t m = Some k <-> exists e, e ∈ es /\ en_tag e = t /\ en_phys e = Some k.
Lemma reads_entity dim e m : length (en_box e) = (if dim =? 0 then 3 else 6) ->
  reads (parse_entity dim m) (write_entity dim e) (match en_phys e with Some k => dm_set (en_tag e) k m | None => m end).
Proof.
  intros Hb. unfold parse_entity, write_entity.
  apply (reads_then _ _ [_] _ (en_tag e)); [apply reads_nat|]. eapply reads_then; [apply (reads_times1 get_val Val); [apply reads_val|]; rewrite Hb; by destruct dim|].
  set (m' := match en_phys e with Some k => dm_set (en_tag e) k m | None => m end).
  assert (Hrest : reads (if 0 <? dim then k <~ get_nat; _ <~ times k get_int; ret m' else ret m') (if dim =? 0 then [] else [num (length (en_bounds e))] ++ map Int (en_bounds e)) m').
  { destruct dim as [|dim]; [apply reads_ret|]. change (0 <? S dim) with true. change (S dim =? 0) with false. cbv iota. eapply reads_then; [apply reads_nat|]. rewrite <- (app_nil_r (map Int _)). eapply reads_then; [apply (reads_times1 get_int Int); [apply reads_int|done]|]. apply reads_ret. }
  unfold m' in *. destruct (en_phys e) as [k|].
  - apply (reads_then _ _ [_] _ 1); [apply reads_nat|]. apply (reads_then0 _ _ _ tt); [apply reads_lift|]. change (1 =? 1) with true. cbv iota. change ([num k] ++ ?x) with ([num k] ++ x). apply (reads_then _ _ [num k] _ (dm_set (en_tag e) k m)); [|done]. apply (reads_then _ _ [num k] [] k); [apply reads_nat|apply reads_ret].
  - apply (reads_then _ _ [_] _ 0); [apply reads_nat|]. apply (reads_then0 _ _ _ tt); [apply reads_lift|]. change (0 =? 1) with false. cbv iota. apply (reads_then0 _ _ _ m); [apply reads_ret|done].
Qed.
Lemma reads_dim_entities dim es : NoDup (map en_tag es) -> (forall e, e ∈ es -> length (en_box e) = if dim =? 0 then 3 else 6) ->
  exists m, reads (iterate (length es) (parse_entity dim) []) (concat (map (write_entity dim) es)) m /\ ent_map es m.
Proof.
  intros Hnd Hb.
  destruct (reads_iterate (parse_entity dim) (write_entity dim) (fun pre m => NoDup (map en_tag pre) -> ent_map pre m) es []) as (m & Hm & HR).
  - intros pre e l2 m He HR. exists (match en_phys e with Some k => dm_set (en_tag e) k m | None => m end). split; [apply reads_entity; apply Hb; rewrite He; apply elem_of_app; right; left|].
    intros Hnd'. rewrite map_app in Hnd'. apply NoDup_app in Hnd' as (Hp & Hd & _). destruct (HR Hp) as [Hs Hf]. split.
    + destruct (en_phys e); [by apply dm_set_sorted|done].
    + intros t k. destruct (en_phys e) as [k0|] eqn:Ek.
      * rewrite dm_find_set by done. case_decide as Ht.
        -- subst t. split; [intros [= <-]; exists e; split; [apply elem_of_app; right; left|done]|]. intros (e' & He' & Ht & Hk). apply elem_of_app in He' as [He'|He'].
           ++ destruct (Hd (en_tag e')); [apply (elem_of_list_fmap en_tag); by exists e'|]. rewrite Ht. left.
           ++ apply elem_of_list_singleton in He' as ->. congruence.
        -- rewrite Hf. split; intros (e' & He' & Ht' & Hk); exists e'; (split; [|done]); [apply elem_of_app; by left|]. apply elem_of_app in He' as [He'|He']; [done|]. apply elem_of_list_singleton in He' as ->. congruence.
      * rewrite Hf. split; intros (e' & He' & Ht' & Hk); exists e'; (split; [|done]); [apply elem_of_app; by left|]. apply elem_of_app in He' as [He'|He']; [done|]. apply elem_of_list_singleton in He' as ->. congruence.
  - intros _. split; [constructor|]. intros t k. split; [done|]. intros (e & He & _). by apply elem_of_nil in He.
  - exists m. split; [done|by apply HR].
Qed.
Lemma no_names_entities l s : Name s ∈ write_entities l -> False.
Proof.
  unfold write_entities. intros H. apply elem_of_app in H as [H|H]; [apply (elem_of_list_fmap (fun es => num (length es))) in H as (? & ? & _); discriminate|].
  apply elem_of_concat in H as (x & Hs & Hx). apply elem_of_lookup_imap in Hx as (dim & es & -> & _). apply elem_of_concat in Hs as (y & Hs & Hy). apply (elem_of_list_fmap (write_entity dim)) in Hy as (e & -> & _).
  unfold write_entity in Hs. rewrite !elem_of_app in Hs. destruct Hs as [Hs|[Hs|[Hs|Hs]]].
  - apply elem_of_list_singleton in Hs. discriminate.
  - apply (elem_of_list_fmap Val) in Hs as (? & ? & _); discriminate.
  - destruct (en_phys e); rewrite !elem_of_cons, elem_of_nil in Hs; intuition discriminate.
  - destruct (dim =? 0); [by apply elem_of_nil in Hs|]. apply elem_of_app in Hs as [Hs|Hs]; [apply elem_of_list_singleton in Hs; discriminate|]. apply (elem_of_list_fmap Int) in Hs as (? & ? & _); discriminate.
Qed.
Lemma reads_entities between ents : length ents = 4 -> (forall s, Name s ∈ between -> s <> Entities) ->
  (forall dim es, ents !! dim = Some es -> NoDup (map en_tag es) /\ forall e, e ∈ es -> length (en_box e) = if dim =? 0 then 3 else 6) ->
  exists ms, reads parse_entities (between ++ [Name Entities] ++ write_entities ents ++ [Name EndEntities]) ms /\ Forall2 ent_map ents ms.
Proof.
  intros Hl Hb He. destruct (list4 _ Hl) as (e0 & e1 & e2 & e3 & ->).
  destruct (He 0 e0 eq_refl) as [N0 B0], (He 1 e1 eq_refl) as [N1 B1], (He 2 e2 eq_refl) as [N2 B2], (He 3 e3 eq_refl) as [N3 B3].
  destruct (reads_dim_entities 0 e0 N0 B0) as (m0 & R0 & M0), (reads_dim_entities 1 e1 N1 B1) as (m1 & R1 & M1), (reads_dim_entities 2 e2 N2 B2) as (m2 & R2 & M2), (reads_dim_entities 3 e3 N3 B3) as (m3 & R3 & M3).
  exists [m0; m1; m2; m3]. split; [|constructor; [exact M0|constructor; [exact M1|constructor; [exact M2|constructor; [exact M3|constructor]]]]]. unfold parse_entities. rewrite app_assoc. eapply reads_then; [by apply reads_skip|].
  unfold write_entities. rewrite <- app_assoc. eapply reads_then; [apply (reads_times1 get_nat num [length e0; length e1; length e2; length e3]); [apply reads_nat|done]|].
  apply (reads_then _ _ _ _ [m0; m1; m2; m3]); [|apply (reads_then _ _ [_] [] tt); [apply reads_skip1|apply reads_ret]].
  set (W := fun dim es => concat (map (write_entity dim) es)). change (concat (imap _ [e0; e1; e2; e3])) with (W 0 e0 ++ W 1 e1 ++ W 2 e2 ++ W 3 e3 ++ []).
  cbn [iterate_list]. eapply reads_then; [apply (reads_then0 _ _ _ (length e0)); [apply reads_lift|]; rewrite <- (app_nil_r (W _ _)); eapply reads_then; [exact R0|apply reads_ret]|].
  eapply reads_then; [apply (reads_then0 _ _ _ (length e1)); [apply reads_lift|]; rewrite <- (app_nil_r (W _ _)); eapply reads_then; [exact R1|apply reads_ret]|].
  eapply reads_then; [apply (reads_then0 _ _ _ (length e2)); [apply reads_lift|]; rewrite <- (app_nil_r (W _ _)); eapply reads_then; [exact R2|apply reads_ret]|].
  eapply reads_then; [apply (reads_then0 _ _ _ (length e3)); [apply reads_lift|]; rewrite <- (app_nil_r (W _ _)); eapply reads_then; [exact R3|apply reads_ret]|].
  apply reads_ret.
Qed.
