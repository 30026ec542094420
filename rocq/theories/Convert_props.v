(** C76: convertMeshToOrder. *)
From Coq Require Import Reals Lra.
From Verif Require Import Base StdAlgo Ownership_model Elem_model Elem_spec Mesh_model Mesh_spec Mesh_proofs Merge_model Helpers_model Partition_model Partition_spec Poly_model Poly_spec Poly_proofs Basis_spec Basis_model Basis_props Geom_model SumFact3_proofs.
From Verif Require Import Convert_model Convert_proofs Convert_spec Convert3_proofs Convert4_proofs Convert7_proofs Convert8_proofs.
Local Open Scope nat_scope.

(** C76.  A conforming mesh is converted: domains, element types, ids, vertices and
    boundaries are kept and every element gets the nodes of the new order.  Two nodes have
    the same number exactly if they are the same point, the numbers are 0 .. N'-1, old
    nodes keep theirs, sides stay sides, and the result is again an unpartitioned mesh. *)
Theorem mesh_converted OC absc (x : mesh (list R)) N adj X sched shuffle :
  symmetric_absc OC absc -> 1 <= OC -> convertible x N adj -> placed X (m_domains x) -> resolved tolerance OC X absc (m_domains x) ->
  (forall l, sched l ≡ₚ l) -> (forall l, shuffle l ≡ₚ l) ->
  exists y N' r, convertMeshToOrder point_matcher (location absc) OC sched shuffle adj x = Ok y /\ converted OC absc x y N' r /\ N <= N'.
Proof. exact (conversion_ok OC absc x N adj X sched shuffle). Qed.
Print Assumptions mesh_converted.
(** C76.  The abscissae the code uses (C70) are symmetric. *)
Theorem lobatto_symmetric OC roots : lobatto_of (OC + 1) roots -> symmetric_absc OC (lobattoAbsc (OC + 1) roots).
Proof.
  intros Hl. destruct (lobatto_mirrored (OC + 1) roots Hl) as (_ & _ & Hm). destruct Hl as (Hn & Hlr & Hs & l & Hl & Hz). destruct (lobatto_abscissae (OC + 1) l roots Hn Hl Hlr Hs Hz) as (L & Ha & H0 & H1 & _). cbv zeta in *. set (a := lobattoAbsc (OC + 1) roots) in *.
  split; [done|]. split; [done|]. split; [by replace (OC + 1 - 1) with OC in H1 by lia|split].
  - intros g h Hgh. destruct (lookup_lt_is_Some_2 a g) as [u Hu]; [lia|]. destruct (lookup_lt_is_Some_2 a h) as [v Hv]; [lia|]. rewrite (nth_lookup_Some _ _ _ _ Hu), (nth_lookup_Some _ _ _ _ Hv). apply (Ha g h); [done|done|lia].
  - intros g Hg. specialize (Hm g ltac:(lia)). by replace (OC + 1 - 1 - g) with (OC - g) in Hm by lia.
Qed.
Print Assumptions lobatto_symmetric.
Theorem mesh_converted_lobatto OC roots (x : mesh (list R)) N adj X sched shuffle :
  let absc := lobattoAbsc (OC + 1) roots in
  lobatto_of (OC + 1) roots -> convertible x N adj -> placed X (m_domains x) -> resolved tolerance OC X absc (m_domains x) ->
  (forall l, sched l ≡ₚ l) -> (forall l, shuffle l ≡ₚ l) ->
  exists y N' r, convertMeshToOrder point_matcher (location absc) OC sched shuffle adj x = Ok y /\ converted OC absc x y N' r /\ N <= N'.
Proof. intros absc Hl. apply mesh_converted; [by apply lobatto_symmetric|]. destruct Hl as [? _]. lia. Qed.
Print Assumptions mesh_converted_lobatto.
(** C76.  Nodes with the same number are at the same position, and every location the
    code computes exists. *)
Theorem converted_positions OC absc (x y : mesh (list R)) N N' adj X r e f i j a :
  symmetric_absc OC absc -> 1 <= OC -> convertible x N adj -> placed X (m_domains x) -> converted OC absc x y N' r -> is_elem (m_domains x) e -> is_elem (m_domains x) f ->
  el_nodes (r e) !! i = Some a -> el_nodes (r f) !! j = Some a ->
  nodePhysicalLocation (el_type e) absc (el_verts e) i = Ok (map (position X absc e i) [0; 1; 2]) /\
  nodePhysicalLocation (el_type f) absc (el_verts f) j = nodePhysicalLocation (el_type e) absc (el_verts e) i.
Proof.
  intros Hsym HO Hc Hp Hv He Hf Hi Hj. assert (Hs : same_point absc e i f j) by (by apply (cd_same _ _ _ _ _ _ Hv e f i j a a He Hf Hi Hj)).
  assert (Hty : forall g : element (list R), is_elem (m_domains x) g -> length (el_nodes g) = nodes_per_element (el_type g) 1 /\ length (el_verts g) = nodes_per_element (el_type g) 1 /\ Forall (fun v => length v = 3) (el_verts g) /\ (forall n, n ∈ el_nodes g -> n < N)).
  { intros g Hg. assert (Hlg : length (el_nodes g) = nodes_per_element (el_type g) 1) by (by apply (typed_g x N adj g Hc)). destruct Hp as [HX HV]. rewrite (HV g Hg). split; [done|]. split; [by rewrite map_length|]. split; [apply Forall_forall; intros v Hv'; apply elem_of_list_fmap in Hv' as (n & -> & _); apply HX|].
    intros n Hn. apply (un_nodes _ _ _ (cv_mesh _ _ _ Hc)). by exists g. }
  destruct (Hty e He) as (Le & Ve & Te & Ne). destruct (Hty f Hf) as (Lf & Vf & Tf & Nf).
  assert (Hil : i < nodes_per_element (el_type e) OC). { destruct (cd_raised _ _ _ _ _ _ Hv e He) as (_ & _ & _ & _ & <- & _). by eapply lookup_lt_Some. }
  assert (Hjl : j < nodes_per_element (el_type f) OC). { destruct (cd_raised _ _ _ _ _ _ Hv f Hf) as (_ & _ & _ & _ & <- & _). by eapply lookup_lt_Some. }
  assert (La : length absc = OC + 1) by apply Hsym. rewrite (place_ok OC absc (el_type e) (el_verts e) i), (place_ok OC absc (el_type f) (el_verts f) j) by done.
  rewrite !(position_at absc X e), !(position_at absc X f) by (done || by apply Hp). split; [done|]. by rewrite !(same_position absc X e f i j _ N).
Qed.
Print Assumptions converted_positions.

(** C76.  What the conversion accepts: a mesh that is not partitioned, has nodes, and in
    which every id below the number of elements is that of an element.  A mesh with nodes
    of other ranks is rejected. *)
Theorem unsuitable_rejected {P} (near : P -> P -> bool) (loc : etype -> list (list R) -> nat -> nat -> P) OC sched shuffle adj (x : mesh (list R)) :
  (so_shared (m_own x) <> [] -> convertMeshToOrder near loc OC sched shuffle adj x = Throw) /\
  forall y, Mesh_spec.ascending (m_domains x) -> convertMeshToOrder near loc OC sched shuffle adj x = Ok y ->
    so_shared (m_own x) = [] /\ so_begin (m_own x) = 0 /\ 0 < so_end (m_own x) /\
    forall i, i < getNElements (m_domains x) -> exists e, is_elem (m_domains x) e /\ el_id e = i.
Proof.
  unfold convertMeshToOrder, dual_checks. cbv zeta. unfold localSize. split.
  - intros Hs. destruct (so_shared (m_own x)) as [|n l]; [done|]. cbn [length]. rewrite (proj2 (Nat.eqb_neq (numOwned (m_own x) + S (length l)) 0)) by lia. done.
  - intros y Ha Hy. apply bind_inv in Hy as (u & Hd & _). apply bind_inv in Hd as (u1 & H1 & Hd). apply bind_inv in Hd as (u2 & H2 & Hd).
    destruct (Nat.eqb_spec (numOwned (m_own x)) 0) as [|Hn]; [done|]. rewrite (proj2 (Nat.eqb_neq (numOwned (m_own x) + length (so_shared (m_own x))) 0)) in H1 by lia. cbn [orb] in H1.
    destruct (Nat.eqb_spec (length (so_shared (m_own x))) 0) as [Hl|]; [|done]. cbn [andb] in H1. destruct (Nat.eqb_spec (so_begin (m_own x) + numOwned (m_own x) - 1 + 1) (numOwned (m_own x))) as [Hb|]; [|done].
    split; [by apply nil_length_inv|]. unfold numOwned in Hn, Hb. split; [lia|]. split; [lia|].
    assert (Hall : forall l u v, for_each (fun i _ => r ← find_id i (m_domains x); match r with Some _ => Ok tt | None => Throw end) l u = Ok v -> forall i, i ∈ l -> exists e, find_id i (m_domains x) = Ok (Some e)).
    { induction l as [|j l IH]; intros w v Hw i Hi; [by apply elem_of_nil in Hi|]. cbn in Hw. apply bind_inv in Hw as (w1 & Hw1 & Hw2). apply bind_inv in Hw1 as (r & Hr & Hr').
      apply elem_of_cons in Hi as [->|Hi]; [|by apply (IH w1 v)]. destruct r as [e|]; [by exists e|done]. }
    intros i Hi. destruct (Hall _ _ _ Hd i) as [e He]; [apply elem_of_seq; lia|]. destruct (find_id_ok (m_domains x) i Ha) as (o & Ho & Hspec). rewrite He in Ho. injection Ho as <-. by exists e.
Qed.
Print Assumptions unsuitable_rejected.

(** ** Examples *)
(** Locations of nodes of order 1 and 2 times four, in whole numbers. *)
Definition ex_weight (t : etype) (O k i : nat) : nat :=
  foldr (fun a r => (let g := coord O i a * (2 / O) in if coord 1 k a =? 0 then 2 - g else g) * r) 1 (seq 0 (native_dim t)) * match t with Line => 4 | Quad => 2 | Hex => 1 end.
Definition ex_loc (t : etype) (verts : list (list nat)) (O i : nat) : list nat :=
  map (fun a => sum (imap (fun k v => nth a v 0 * ex_weight t O k i) verts)) [0; 1; 2].
Definition ex_near (p q : list nat) : bool := bool_decide (p = q).
Definition ex_X (n : nat) : list nat := nth n [[0; 0; 0]; [1; 0; 0]; [2; 0; 0]; [0; 1; 0]; [1; 1; 0]; [2; 1; 0]] [].
Definition ex_el (t : etype) (ns : list nat) (i : nat) : element (list nat) := mk_el t 1 ns (map ex_X ns) i.
Definition ex_quads : list (element (list nat)) := [ex_el Quad [0; 1; 3; 4] 0; ex_el Quad [1; 2; 4; 5] 1].
Definition ex_convert (m : dmap (domain (list nat))) (ids : list nat) : res (dmap (list (list (list nat))) * ownership) :=
  x ← make_mesh1 (fun l => l) m ids;
  y ← convertMeshToOrder ex_near ex_loc 2 (fun l => l) (fun l => l) [[1; 2; 3]; [0]; [0; 3]; [0; 2]] x;
  Ok (map (fun d : nat * domain (list nat) => (d.1, map (map el_nodes) (d_els d.2))) (m_domains y), m_own y).
(** Two quads; the edge at the bottom of the first is in two boundary domains. *)
Definition ex_low : dmap (domain (list nat)) :=
  [(0, mk_dom [[]; ex_quads; []] (Some 2)); (1, mk_dom [[]; []; [ex_el Line [0; 1] 2]] (Some 1)); (2, mk_dom [[]; []; [ex_el Line [0; 1] 3]] (Some 1))].
Definition ex_high : dmap (domain (list nat)) :=
  [(0, mk_dom [[]; []; [ex_el Line [0; 1] 2]] (Some 1)); (1, mk_dom [[]; []; [ex_el Line [0; 1] 3]] (Some 1)); (2, mk_dom [[]; ex_quads; []] (Some 2))].
Example conversion_example : ex_convert ex_low [1; 2] =
  Ok ([(0, [[]; [[0; 6; 1; 7; 10; 8; 3; 9; 4]; [1; 11; 2; 8; 14; 12; 4; 13; 5]]; []]); (1, [[]; []; [[0; 6; 1]]]); (2, [[]; []; [[0; 6; 1]]])],
      {| so_begin := 0; so_end := 15; so_shared := [] |}).
Proof. vm_compute. reflexivity. Qed.
(** C76.  Whether a mesh whose boundary domains overlap can be converted depends on the
    domain ids: with the boundaries before the quads the second line gets nodes of its
    own, is no longer a side of a quad, and the conversion throws. *)
Theorem overlapping_boundaries_refuted : exists (m m' : dmap (domain (list nat))) x x',
  (forall e, is_elem m e <-> is_elem m' e) /\ make_mesh1 (fun l => l) m [1; 2] = Ok x /\ make_mesh1 (fun l => l) m' [0; 1] = Ok x' /\
  (exists y, convertMeshToOrder ex_near ex_loc 2 (fun l => l) (fun l => l) [[1; 2; 3]; [0]; [0; 3]; [0; 2]] x = Ok y) /\
  convertMeshToOrder ex_near ex_loc 2 (fun l => l) (fun l => l) [[1; 2; 3]; [0]; [0; 3]; [0; 2]] x' = Throw.
Proof.
  exists ex_low, ex_high. eexists _, _. split; [|split; [vm_compute; reflexivity|split; [vm_compute; reflexivity|split; [eexists; vm_compute; reflexivity|vm_compute; reflexivity]]]].
  intros e. rewrite <- !mem_elem. cbn. set_solver.
Qed.
Print Assumptions overlapping_boundaries_refuted.

(** A square with one edge as boundary, order 2: all hypotheses hold. *)
Definition sq_X (n : nat) : list R := match n with 0 => [0; 0; 0] | 1 => [1; 0; 0] | 2 => [0; 1; 0] | _ => [1; 1; 0] end%R.
Definition sq : element (list R) := mk_el Quad 1 [0; 1; 2; 3] (map sq_X [0; 1; 2; 3]) 0.
Definition sq_b : element (list R) := mk_el Line 1 [0; 1] (map sq_X [0; 1]) 1.
Definition sq_mesh : mesh (list R) :=
  mk_mesh [(0, mk_dom [[]; [sq]; []] (Some 2)); (1, mk_dom [[]; []; [sq_b]] (Some 1))] {| so_begin := 0; so_end := 4; so_shared := [] |} [(1, [(sq, 0)])].
Lemma sq_elem e : is_elem (m_domains sq_mesh) e <-> e = sq \/ e = sq_b.
Proof. rewrite <- mem_elem. cbn. set_solver. Qed.
Lemma sq_in k e : in_domain (m_domains sq_mesh) k e <-> (k = 0 /\ e = sq) \/ (k = 1 /\ e = sq_b).
Proof. rewrite <- pairs_in. cbn. set_solver. Qed.
Lemma coord1 k : k < 4 -> (coord 1 k 1 = 0 <-> k < 2).
Proof. intros Hk. destruct k as [|[|[|[|k]]]]; cbn; lia. Qed.
Lemma sq_cube n : cube_nodes sq [None; Some false] n <-> n < 2.
Proof.
  split.
  - intros (k & Hk & Hon). specialize (Hon 1 false eq_refl). cbn [el_nodes sq] in Hk. destruct k as [|[|[|[|k]]]]; cbn in Hk; simplify_eq; cbn in Hon; lia.
  - intros Hn. exists n. split; [destruct n as [|[|n]]; [done|done|lia]|]. intros [|[|a]] b Hb; cbn in Hb; simplify_eq; try (by destruct a). cbn [coord]. destruct n as [|[|n]]; [done|done|lia].
Qed.
Lemma sqb_cube n : cube_nodes sq_b [None] n <-> n < 2.
Proof.
  split.
  - intros (k & Hk & _). cbn [el_nodes sq_b] in Hk. destruct k as [|[|k]]; cbn in Hk; simplify_eq; lia.
  - intros Hn. exists n. split; [destruct n as [|[|n]]; [done|done|lia]|]. intros [|a] b Hb; cbn in Hb; simplify_eq; try (by destruct a).
Qed.
Lemma sq_common n : n ∈ el_nodes sq /\ n ∈ el_nodes sq_b <-> n < 2.
Proof. cbn. rewrite !elem_of_cons, elem_of_nil. lia. Qed.
Lemma sq_joined a b : a < 2 -> b < 2 -> joined sq a b <-> a <> b.
Proof.
  intros Ha Hb. split.
  - intros (k & l & x & Hk & Hl & Hx & H) ->. assert (k = l) as ->. { cbn in Hk, Hl. destruct k as [|[|[|[|k]]]], l as [|[|[|[|l]]]]; cbn in Hk, Hl; simplify_eq; try lia; done. } by apply (H x Hx).
  - intros Hne. exists a, b, 0. split; [destruct a as [|[|a]]; [done|done|lia]|]. split; [destruct b as [|[|b]]; [done|done|lia]|]. split; [cbn; lia|]. intros y Hy. cbn in Hy. destruct a as [|[|a]], b as [|[|b]], y as [|[|y]]; try lia; cbn; lia.
Qed.
Lemma sqb_joined a b : a < 2 -> b < 2 -> joined sq_b a b <-> a <> b.
Proof.
  intros Ha Hb. split.
  - intros (k & l & x & Hk & Hl & Hx & H) ->. assert (k = l) as ->. { cbn in Hk, Hl. destruct k as [|[|k]], l as [|[|l]]; cbn in Hk, Hl; simplify_eq; try lia; done. } by apply (H x Hx).
  - intros Hne. exists a, b, 0. split; [destruct a as [|[|a]]; [done|done|lia]|]. split; [destruct b as [|[|b]]; [done|done|lia]|]. split; [cbn; lia|]. intros y Hy. cbn in Hy. destruct a as [|[|a]], b as [|[|b]], y as [|y]; try lia; cbn; lia.
Qed.
Lemma sq_meet : meet sq sq_b /\ meet sq_b sq.
Proof.
  split; right.
  - exists [None; Some false], [None]. repeat (split; [cbn; lia|]). split; [intros n; by rewrite sq_common, sq_cube|]. split; [intros n; by rewrite sq_common, sqb_cube|].
    intros a b Ha Hb. apply sq_common in Ha, Hb. by rewrite sq_joined, sqb_joined.
  - assert (E : forall n, n ∈ el_nodes sq_b /\ n ∈ el_nodes sq <-> n < 2) by (intros n; rewrite <- sq_common; tauto).
    exists [None], [None; Some false]. repeat (split; [cbn; lia|]). split; [intros n; by rewrite E, sqb_cube|]. split; [intros n; by rewrite E, sq_cube|].
    intros a b Ha Hb. apply E in Ha, Hb. by rewrite sq_joined, sqb_joined.
Qed.
Lemma sq_convertible : convertible sq_mesh 4 [[1]; [0]].
Proof.
  constructor.
  - constructor.
    + apply NoDup_singleton.
    + split; [repeat constructor|]. repeat (apply Forall_cons; split; [|]); [| |apply Forall_nil_2]; (split; [repeat constructor|]);
        intros v e Hv He; cbn in Hv; rewrite !elem_of_cons, elem_of_nil in Hv; destruct Hv as [->|[->|[->|[]]]]; rewrite ?elem_of_cons, ?elem_of_nil in He; try done; destruct He as [->|[]]; done.
    + cbn. apply (bool_decide_unpack _). vm_compute. exact I.
    + done.
    + lia.
    + intros n (e & He & Hn). apply sq_elem in He as [->| ->]; cbn in Hn; rewrite !elem_of_cons, elem_of_nil in Hn; lia.
    + intros n Hn. exists 0, sq. split; [cbn; rewrite elem_of_list_singleton; lia|]. split; [apply sq_in; by left|]. cbn. rewrite !elem_of_cons, elem_of_nil. lia.
    + split; [apply NoDup_singleton|]. intros b Hb. apply elem_of_list_singleton in Hb as ->. cbn. set_solver.
    + split.
      * intros k d Hk Hd. apply elem_of_list_singleton in Hk as ->. cbn in Hd. rewrite !elem_of_cons, elem_of_nil in Hd. destruct Hd as [?|[[= ->]|[]]]; [done|]. exists 1. split; [done|]. exists 0, (mk_dom [[]; [sq]; []] (Some 2)). split; [left|done].
      * intros b d k d' dim Hb Hd Ed Hd' Ed'. cbn in Hb, Hd, Hd'. apply elem_of_list_singleton in Hb as ->. rewrite !elem_of_cons, elem_of_nil in Hd, Hd'. destruct Hd as [Hd|[Hd|[]]]; simplify_eq. cbn in Ed. simplify_eq.
        destruct Hd' as [Hd'|[Hd'|[]]]; simplify_eq; cbn in Ed'; simplify_eq. cbn. by rewrite elem_of_list_singleton.
  - intros e He. apply sq_elem in He as [->| ->]; cbn; lia.
  - intros k d v Hd Hv. cbn in Hd. rewrite !elem_of_cons, elem_of_nil in Hd. destruct Hd as [[= -> ->]|[[= -> ->]|[]]]; cbn in Hv; rewrite !elem_of_cons, elem_of_nil in Hv; destruct Hv as [->|[->|[->|[]]]]; repeat constructor.
  - split.
    + intros e He. apply sq_elem in He as [->| ->]; cbn; apply (bool_decide_unpack _); vm_compute; exact I.
    + intros e f He Hf Hne. apply sq_elem in He as [->| ->], Hf as [->| ->]; try done; apply sq_meet.
  - intros k b Hk Hb. cbn in Hk. apply elem_of_list_singleton in Hk as ->. apply sq_in in Hb as [[? _]|[_ ->]]; [done|]. exists sq, 0. split; [apply sq_elem; by left|]. split; [done|]. exists [0; 1], [0; 1].
    split; [apply (bool_decide_unpack _); vm_compute; exact I|]. split; [|split; [repeat constructor|split; [done|cbn; lia]]]. intros i. cbn [el_type el_order sq]. unfold on_side. cbn [nodes_per_element].
    rewrite !elem_of_cons, elem_of_nil. split; [intros [->|[->|[]]]; cbn; lia|]. intros [Hi Hy]. destruct i as [|[|[|[|i]]]]; cbn in Hi, Hy; lia.
  - split; [done|]. split.
    + intros l i Hl Hi. cbn. rewrite !elem_of_cons, elem_of_nil in Hl. destruct Hl as [->|[->|[]]]; apply elem_of_list_singleton in Hi; lia.
    + intros e f a b He Hf Hne _ _ _ _ _. apply sq_elem in He as [->| ->], Hf as [->| ->]; try done; eexists; (split; [reflexivity|]); set_solver.
Qed.
Definition sq_absc : list R := [-1; 0; 1]%R.
Lemma sq_symmetric : symmetric_absc 2 sq_absc.
Proof.
  repeat split; try (cbn; lra).
  - intros g h Hgh. assert (g = 0 /\ h = 1 \/ g = 0 /\ h = 2 \/ g = 1 /\ h = 2) as [[-> ->]|[[-> ->]|[-> ->]]] by lia; cbn; lra.
  - intros g Hg. destruct g as [|[|[|g]]]; cbn; lra || lia.
Qed.
Lemma sq_placed : placed sq_X (m_domains sq_mesh).
Proof. split; [by intros [|[|[|n]]]|]. intros e He. by apply sq_elem in He as [->| ->]. Qed.
Definition half (k : nat) : R := match k with 0 => 0 | 1 => /2 | _ => 1 end%R.
Lemma sq_position i : i < 9 -> position sq_X sq_absc sq i 0 = half (i mod 3) /\ position sq_X sq_absc sq i 1 = half (i / 3) /\ position sq_X sq_absc sq i 2 = 0%R.
Proof.
  intros Hi. do 9 (destruct i as [|i]; [unfold position, weight, along, sq_absc, sq, sq_X; cbn -[Rplus Rmult Rminus Rdiv]; cbn [half]; repeat split; lra|]). lia.
Qed.
Lemma sqb_position i : i < 3 -> position sq_X sq_absc sq_b i 0 = half i /\ position sq_X sq_absc sq_b i 1 = 0%R /\ position sq_X sq_absc sq_b i 2 = 0%R.
Proof.
  intros Hi. do 3 (destruct i as [|i]; [unfold position, weight, along, sq_absc, sq, sq_X; cbn -[Rplus Rmult Rminus Rdiv]; cbn [half]; repeat split; lra|]). lia.
Qed.
Lemma sq_same i : i < 3 -> same_point sq_absc sq i sq_b i.
Proof.
  intros Hi n. unfold part_of, weight, along, sq_absc, sq, sq_b. do 3 (destruct i as [|i]; [do 4 (destruct n as [|n]; [cbn -[Rplus Rmult Rminus Rdiv]; lra|]); cbn -[Rplus Rmult Rminus Rdiv]; lra|]). lia.
Qed.
Lemma far (p q : nat -> R) : (1 / 4 <= (p 0%nat - q 0%nat) ^ 2 + (p 1%nat - q 1%nat) ^ 2 + (p 2%nat - q 2%nat) ^ 2)%R -> (tolerance <= distance p q)%R.
Proof. intros H. unfold distance. apply (Rle_trans _ (R_sqrt.sqrt (1 / 4))); [|by apply sqrt_le_1_alt]. replace (1 / 4)%R with ((1 / 2) * (1 / 2))%R by lra. rewrite sqrt_square by lra. unfold tolerance. lra. Qed.
Lemma half_far a b : a < 3 -> b < 3 -> a <> b -> (1 / 4 <= (half a - half b) ^ 2)%R.
Proof. intros Ha Hb Hne. destruct a as [|[|[|a]]], b as [|[|[|b]]]; try lia; cbn -[Rplus Rmult Rminus Rdiv]; lra. Qed.
Lemma sq_resolved : resolved tolerance 2 sq_X sq_absc (m_domains sq_mesh).
Proof.
  assert (Hpp : forall x y z : R, (1 / 4 <= x ^ 2 \/ 1 / 4 <= y ^ 2 -> 1 / 4 <= x ^ 2 + y ^ 2 + z ^ 2)%R). { intros x y z H. pose proof (pow2_ge_0 x). pose proof (pow2_ge_0 y). pose proof (pow2_ge_0 z). destruct H; lra. }
  assert (Hh0 : 0%R = half 0) by done.
  intros e f i j He Hf _ Hi Hj Hns. apply far. apply sq_elem in He as [->| ->], Hf as [->| ->]; cbn [el_type sq sq_b nodes_per_element] in Hi, Hj; cbn in Hi, Hj.
  - destruct (sq_position i Hi) as (-> & -> & ->), (sq_position j Hj) as (-> & -> & ->). apply Hpp. destruct (decide (i mod 3 = j mod 3)) as [E|].
    + right. apply half_far; [apply Nat.div_lt_upper_bound; lia|apply Nat.div_lt_upper_bound; lia|]. intros E'. apply Hns. assert (i = j) as -> by (rewrite (Nat.div_mod i 3), (Nat.div_mod j 3) by lia; lia). done.
    + left. apply half_far; [apply Nat.mod_upper_bound; lia|apply Nat.mod_upper_bound; lia|done].
  - destruct (sq_position i Hi) as (-> & -> & ->), (sqb_position j Hj) as (-> & -> & ->). apply Hpp. destruct (decide (i mod 3 = j)) as [E|].
    + right. rewrite Hh0. apply half_far; [apply Nat.div_lt_upper_bound; lia|lia|]. intros E'. apply Hns. assert (i = j) as -> by (rewrite (Nat.div_mod i 3) by lia; lia). by apply sq_same.
    + left. apply half_far; [apply Nat.mod_upper_bound; lia|lia|done].
  - destruct (sqb_position i Hi) as (-> & -> & ->), (sq_position j Hj) as (-> & -> & ->). apply Hpp. destruct (decide (i = j mod 3)) as [E|].
    + right. rewrite Hh0. apply half_far; [lia|apply Nat.div_lt_upper_bound; lia|]. intros E'. apply Hns. assert (j = i) as -> by (rewrite (Nat.div_mod j 3) by lia; lia). intros n. symmetry. by apply sq_same.
    + left. apply half_far; [lia|apply Nat.mod_upper_bound; lia|done].
  - destruct (sqb_position i Hi) as (-> & -> & ->), (sqb_position j Hj) as (-> & -> & ->). apply Hpp. left. apply half_far; [done|done|]. intros ->. by apply Hns.
Qed.
Example mesh_converted_hyps : symmetric_absc 2 sq_absc /\ convertible sq_mesh 4 [[1]; [0]] /\ placed sq_X (m_domains sq_mesh) /\ resolved tolerance 2 sq_X sq_absc (m_domains sq_mesh).
Proof. split; [apply sq_symmetric|]. split; [apply sq_convertible|]. split; [apply sq_placed|apply sq_resolved]. Qed.
