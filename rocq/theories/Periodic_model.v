(** Model of bcs/PeriodicBC.hpp, from the definition and the matched pairs of nodes
    to the information kept on every rank.  The geometric search (getSourceNodeData,
    getDestNodeData, NodeMatcher, 87-208, and staggeredAllGather, C15) is a function
    argument: for the groups of boundaries it gives the pairs matched on each rank. *)
From Verif Require Import Base StdAlgo Ownership_model Helpers_model Graph_model Dofs_model.

Section periodic.
  (** [G]: BoundaryGroup, 52-60. *)
  Context {G : Type} `{EqDecision G} (D : nat).
  (** processPeriodicDef, 60-80.  [srt]: std::ranges::sort of the groups of a
      component; [ord]: the order of the keys of the std::map, given by the
      comparison of groups. *)
  Definition covers (d : G * list bool) (i : nat) : bool := match d.2 !! i with Some b => b | None => false end.
  Fixpoint set_dof (key : list G) (i : nat) (m : list (list G * list bool)) : list (list G * list bool) :=
    match m with
    | [] => [(key, <[i := true]> (replicate D false))]
    | (k, bits) :: m => if decide (key = k) then (k, <[i := true]> bits) :: m else (k, bits) :: set_dof key i m
    end.
  Definition processPeriodicDef (srt : list G -> list G) (ord : list (list G * list bool) -> list (list G * list bool)) (defs : list (G * list bool)) : list (list bool * list G) :=
    let dof_groups := map (fun i => srt (map fst (List.filter (fun d => covers d i) defs))) (seq 0 D) in
    map (fun p => (p.2, p.1)) (ord (foldl (fun m z => set_dof z.2 z.1 m) [] (zip (seq 0 D) dof_groups))).

  (** getComponents, 250-265.  [fill], [shuffle], [shuffle_row]: as in makeCrsGraph. *)
  Definition getComponents fill shuffle shuffle_row (src dest : list nat) : res (list (list nat)) :=
    let nodes := sortRemoveDup (src ++ dest) in
    let g2l := make_IndexMap nodes in
    s ← map_res (IndexMap_at g2l) src; d ← map_res (IndexMap_at g2l) dest;
    graph ← makeCrsGraph fill shuffle shuffle_row true s d;
    comps ← getComponentsUndirected graph;
    map_res (map_res (at_ nodes)) comps.

  (** scatterMatched, 267-322: the messages of rank 0, one for each rank; a message
      is the two lists p and a. *)
  Definition add_passive (counts : list nat) (a p : nat) (msgs : list (list (nat * nat))) : res (list (list (nat * nat))) :=
    let o := get_owner (getOwnershipDist counts) p in
    m ← at_ msgs o; wr msgs o (m ++ [(p, a)]).
  Definition scatterMatched (counts : list nat) (comps : list (list nat)) : res (list (list (nat * nat))) :=
    for_each (fun c msgs =>
      _ ← throwing_assert (1 <? length c);
      match c with [] => UB | a :: ps => for_each (add_passive counts a) ps msgs end) comps (replicate (length counts) []).

  (** The body of the loop of the constructor, 345-353, on one rank, for one message;
      the ghosts are collected in a std::set, here in a list. *)
  Definition set_partner (bits : list bool) (n a : nat) (info : list (nat * list (option nat))) : res (list (nat * list (option nat))) :=
    let info := hm_emplace n (replicate D None) info in
    row ← match hm_find n info with Some row => Ok row | None => UB end;
    row ← for_each (fun i row => wr row i (Some a)) (true_inds bits) row;
    Ok (map (fun e => if e.1 =? n then (e.1, row) else e) info).
  Definition add_message (so : ownership) (bits : list bool) (msg : list (nat * nat)) (st : list (nat * list (option nat)) * list nat)
      : res (list (nat * list (option nat)) * list nat) :=
    for_each (fun (pa : nat * nat) st =>
      info ← set_partner bits pa.1 pa.2 st.1;
      Ok (info, if negb (isOwned so pa.2) && negb (isShared so pa.2) then pa.2 :: st.2 else st.2)) msg st.
  (** The constructor, 325-356, on all ranks; gatherMatched, 212-248, puts the pairs
      of the ranks one after the other.  [matched gs]: for each rank the lists src
      and dest. *)
  Definition PeriodicBC fill shuffle shuffle_row srt ord (defs : list (G * list bool)) (matched : list G -> list (list nat * list nat)) (sos : list ownership) : res (list pbc) :=
    st ← for_each (fun (g : list bool * list G) st =>
           let m := matched g.2 in
           comps ← getComponents fill shuffle shuffle_row (concat (map fst m)) (concat (map snd m));
           msgs ← scatterMatched (map numOwned sos) comps;
           map_res (fun z : ownership * (list (nat * nat) * (list (nat * list (option nat)) * list nat)) => add_message z.1 g.1 z.2.1 z.2.2) (zip sos (zip msgs st)))
         (processPeriodicDef srt ord defs) (replicate (length sos) ([], []));
    Ok (map (fun s : list (nat * list (option nat)) * list nat => {| pb_info := s.1; pb_ghosts := unique (sort s.2) |}) st).
End periodic.
