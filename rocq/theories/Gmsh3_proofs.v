(** Proofs for C64: nodes and elements of a file. *)
From Coq Require Import QArith Lqa.
From Verif Require Import Base StdAlgo Elem_model Mesh_model Mesh_proofs Merge_model Merge2_proofs Gmsh_model Gmsh_spec Gmsh_proofs Gmsh2_proofs.
Local Open Scope nat_scope.

(** ** Nodes *)
Definition numbered (l : list (nat * pt3)) : list (nat * node_info) := imap (fun i x => (x.1, (i, x.2))) l.
Lemma numbered_snoc l x : numbered (l ++ [x]) = numbered l ++ [(x.1, (length l, x.2))].
Proof. unfold numbered. rewrite imap_app. cbn [imap]. do 3 f_equal. cbn. by rewrite Nat.add_0_r. Qed.
Lemma numbered_keys l : (numbered l).*1 = map fst l.
Proof. unfold numbered. apply list_eq. intros i. rewrite list_lookup_fmap, list_lookup_imap, (list_lookup_fmap fst). by destruct (l !! i). Qed.
Lemma numbered_find l tag x : NoDup (map fst l) -> dm_find tag (numbered l) = Some x <-> l !! x.1 = Some (tag, x.2).
Proof.
  intros Hnd. split.
  - intros H. apply dm_find_elem in H. unfold numbered in H. apply elem_of_lookup_imap in H as (i & [t p] & E & Hi). injection E as -> ->. done.
  - intros H. apply elem_dm_find; [by rewrite numbered_keys|]. unfold numbered. apply elem_of_lookup_imap. exists x.1, (tag, x.2). split; [by destruct x|done].
Qed.
Lemma reads_iterate_map {A B S} (g : A -> B) (f : B -> S -> parser S) l w s s' : reads (iterate_list l (fun a => f (g a)) s) w s' -> reads (iterate_list (map g l) f s) w s'.
Proof.
  intros H ts. rewrite <- H. clear H. generalize (w ++ ts). revert s. induction l as [|a l IH]; intros s us; [done|]. cbn [map iterate_list]. unfold andthen. destruct (f (g a) s us) as [[s1 us1]| |]; [|done..]. rewrite !bind_ok. apply IH.
Qed.
Definition node_state (pre : list (nat * pt3)) (st : list (nat * node_info) * nat) : Prop := st = (numbered pre, length pre).
Lemma app_prefix {A} (l l1 l2 : list A) (x : A) : l ++ l1 ++ x :: l2 = (l ++ l1 ++ [x]) ++ l2.
Proof. by rewrite <- !app_assoc. Qed.
Lemma reads_node s tag p : reads (parse_node tag s) [Val (xc p); Val (yc p); Val (zc p)] (match dm_find tag s.1 with Some _ => s.1 | None => s.1 ++ [(tag, (s.2, p))] end, S s.2).
Proof. destruct p as [[x y] z]. intros ts. reflexivity. Qed.
Lemma reads_node_block b pre st : nb_nodes b <> [] -> NoDup (map fst (pre ++ nb_nodes b)) -> node_state pre st ->
  exists st', reads (parse_node_block st) (write_node_block b) st' /\ node_state (pre ++ nb_nodes b) st'.
Proof.
  intros Hne Hnd Hst. destruct (reads_iterate_list (fun x : nat * pt3 => parse_node x.1) (fun x => [Val (xc x.2); Val (yc x.2); Val (zc x.2)]) (fun l s => node_state (pre ++ l) s) (nb_nodes b) st) as (st' & Hr & HR).
  - intros l [tag p] l2 s Hl HR. unfold node_state in HR. subst s. eexists. split; [apply reads_node|]. cbn [fst snd]. destruct (dm_find tag (numbered (pre ++ l))) as [v|] eqn:E.
    + exfalso. apply dm_find_elem in E. rewrite Hl, app_assoc, map_app in Hnd. apply NoDup_app in Hnd as (_ & Hd & _). apply (Hd tag); [|left]. rewrite <- numbered_keys. apply elem_of_list_fmap. by exists (tag, v).
    + unfold node_state. rewrite app_assoc, numbered_snoc, (app_length (pre ++ l)). cbn [length fst snd]. rewrite Nat.add_1_r. done.
  - by rewrite app_nil_r.
  - exists st'. split; [|done]. unfold parse_node_block, write_node_block.
    apply (reads_then _ _ [_] _ (nb_dim b)); [apply reads_int|]. apply (reads_then _ _ [_] _ (nb_entity b)); [apply reads_int|]. apply (reads_then _ _ [_] _ 0); [apply reads_nat|]. apply (reads_then _ _ [_] _ (length (nb_nodes b))); [apply reads_nat|].
    apply (reads_then0 _ _ _ tt); [apply reads_lift|]. eapply reads_then.
    + replace (map (fun x : nat * pt3 => num x.1) (nb_nodes b)) with (map num (map fst (nb_nodes b))) by by rewrite map_map. apply reads_copy_n; [apply reads_nat|by rewrite map_length|]. by destruct (nb_nodes b).
    + by apply reads_iterate_map.
Qed.
Lemma concat_snoc {A B} (f : A -> list B) l x : concat (map f (l ++ [x])) = concat (map f l) ++ f x.
Proof. rewrite map_app, concat_app. cbn. by rewrite app_nil_r. Qed.
Lemma reads_nodes (blocks : list node_block) info : length info = 3 -> (forall b, b ∈ blocks -> nb_nodes b <> []) -> NoDup (map fst (concat (map nb_nodes blocks))) ->
  reads parse_nodes ([Name Nodes; num (length blocks)] ++ map num info ++ concat (map write_node_block blocks) ++ [Name EndNodes]) (numbered (concat (map nb_nodes blocks))).
Proof.
  intros Hi Hne Hnd.
  destruct (reads_iterate parse_node_block write_node_block (fun l s => node_state (concat (map nb_nodes l)) s) blocks ([], 0)) as (st & Hr & HR).
  - intros l b l2 s Hl HR. destruct (reads_node_block b (concat (map nb_nodes l)) s) as (s' & H1 & H2); [|  |done|].
    + apply Hne. rewrite Hl. apply elem_of_app. right. left.
    + rewrite Hl, (app_prefix [] l l2 b : l ++ b :: l2 = (l ++ [b]) ++ l2), map_app, concat_app, map_app in Hnd. apply NoDup_app in Hnd as (Hnd & _). by rewrite concat_snoc in Hnd.
    + exists s'. split; [done|]. by rewrite concat_snoc.
  - done.
  - unfold parse_nodes. apply (reads_then _ _ [_] _ tt); [apply reads_skip1|]. apply (reads_then _ _ [_] _ (length blocks)); [apply reads_nat|]. eapply reads_then; [apply (reads_times1 get_nat num); [apply reads_nat|done]|].
    eapply reads_then; [exact Hr|]. apply (reads_then _ _ [_] [] tt); [apply reads_skip1|]. rewrite HR. apply reads_ret.
Qed.

(** ** Elements *)
Section elements.
  Context (f : gmsh_file) (Hnodes : NoDup (map fst (file_nodes f))).
  Notation nodes := (numbered (file_nodes f)).
  Lemma at_keys tags : (forall tag, tag ∈ tags -> tag ∈ map fst (file_nodes f)) -> exists data, map_res (at_key nodes) tags = Ok data /\ Forall2 (node_is f) tags data.
  Proof using Hnodes.
    induction tags as [|t tags IH]; intros H; [exists []; split; [done|constructor]|].
    destruct IH as (data & E & F); [intros tag Ht; apply H; by right|]. assert (Ht := H t ltac:(left)). apply (elem_of_list_fmap fst) in Ht as ([t' p] & Et & Hin). cbn in Et. subst t'. apply elem_of_list_lookup in Hin as [i Hi].
    exists ((i, p) :: data). split; [|constructor; done]. assert (E1 : at_key nodes t = Ok (i, p)) by (unfold at_key; by rewrite (proj2 (numbered_find (file_nodes f) t (i, p) Hnodes))). cbn [map_res]. rewrite E1, bind_ok, E. done.
  Qed.
  Definition made (t : etype) (x : nat * list nat) (id : nat) (e : element pt3) : Prop := el_id e = id /\ exists data, Forall2 (node_is f) x.2 data /\ imported t data e.
  Lemma reads_element t x st : length x.2 = length (gmsh_place t) -> (forall tag, tag ∈ x.2 -> tag ∈ map fst (file_nodes f)) ->
    exists e, reads (read_element nodes t st) (num x.1 :: map num x.2) (st.1 ++ [e], S st.2) /\ made t x st.2 e.
  Proof using Hnodes.
    intros Hl Hk. destruct (at_keys x.2 Hk) as (data & Ed & Hd). destruct (make_element_imported t data st.2) as (e & Ee & Hid & Him); [rewrite <- Hl; symmetry; by eapply Forall2_length|].
    exists e. split; [|split; [done|by exists data]]. unfold read_element. apply (reads_then _ _ [_] _ x.1); [apply reads_nat|]. rewrite <- (app_nil_r (map num _)). eapply reads_then; [apply reads_copy_n; [apply reads_nat|rewrite Hl; by destruct t|]; intros E; rewrite E in Hl; by destruct t|].
    rewrite Ed. apply (reads_then0 _ _ _ data); [apply reads_lift|]. rewrite Ee. apply (reads_then0 _ _ _ e); [apply reads_lift|apply reads_ret].
  Qed.
  Lemma reads_elements t els v id : (forall x, x ∈ els -> length x.2 = length (gmsh_place t) /\ forall tag, tag ∈ x.2 -> tag ∈ map fst (file_nodes f)) ->
    exists es, reads (iterate (length els) (read_element nodes t) (v, id)) (concat (map (fun x => num x.1 :: map num x.2) els)) (v ++ es, id + length els) /\
      length es = length els /\ forall j x e, els !! j = Some x -> es !! j = Some e -> made t x (id + j) e.
  Proof using Hnodes.
    intros Hok. destruct (reads_iterate (read_element nodes t) (fun x => num x.1 :: map num x.2) (fun l st => exists es, st = (v ++ es, id + length l) /\ length es = length l /\ forall j x e, l !! j = Some x -> es !! j = Some e -> made t x (id + j) e) els (v, id)) as (st & Hr & es & -> & HL & H).
    - intros l x l2 s Hl (es & -> & HL & H). destruct (Hok x) as [H1 H2]; [rewrite Hl; apply elem_of_app; right; left|]. destruct (reads_element t x (v ++ es, id + length l) H1 H2) as (e & Hr & He). eexists. split; [exact Hr|]. exists (es ++ [e]). cbn [fst snd] in *. rewrite !app_length. cbn [length]. split; [rewrite app_assoc; f_equal; lia|]. split; [lia|].
      intros j x' e' Hx' He'. apply lookup_app_Some in Hx' as [Hx'|[Hj Hx']].
      + rewrite lookup_app_l in He' by (rewrite HL; by eapply lookup_lt_Some). by eapply H.
      + apply list_lookup_singleton_Some in Hx' as [Hz <-]. assert (j = length l) as -> by lia. rewrite lookup_app_r in He' by lia. replace (length l - length es) with 0 in He' by lia. injection He' as <-. done.
    - exists []. rewrite app_nil_r. split; [f_equal; cbn; lia|]. split; [done|]. intros j x e Hx. done.
    - exists es. done.
  Qed.
End elements.
