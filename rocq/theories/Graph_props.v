(** Properties C28, C29: graph algorithms on CRS graphs. *)
From Verif Require Import Base StdAlgo Graph_model Graph_spec Graph_proofs.

(** C28.  The search visits every vertex reachable from the start exactly once,
    and nothing else. *)
Theorem dfs_visits_reachable_once (g : crs) (start : nat) :
  well_formed g -> start < crs_rows g ->
  exists visited, depthFirstSearch g start = Ok visited /\ NoDup visited /\
    forall v, v ∈ visited <-> rtc (edge g) start v.
Proof. exact (fun Hwf Hs => dfs_ok g start Hwf Hs). Qed.
Print Assumptions dfs_visits_reachable_once.

(** The components partition the vertices, each is sorted, and two vertices
    are in the same component iff a path connects them. *)
Theorem components_are_connectivity_classes (g : crs) :
  well_formed g -> symmetric g ->
  exists comps, getComponentsUndirected g = Ok comps /\
    concat comps ≡ₚ seq 0 (crs_rows g) /\
    Forall (fun c => c <> [] /\ StronglySorted lt c) comps /\
    forall u v, u < crs_rows g -> v < crs_rows g ->
      (exists c, c ∈ comps /\ u ∈ c /\ v ∈ c) <-> rtc (edge g) u v.
Proof. exact (fun Hwf Hs => components_ok g Hwf Hs). Qed.
Print Assumptions components_are_connectivity_classes.

(** Two components, one isolated vertex: 0-2, 1, 3-4. *)
Definition example_graph : crs := {| crs_offs := [0; 1; 1; 2; 3; 4]; crs_adj := [2; 0; 4; 3] |}.
Example example_graph_ok : well_formed example_graph /\ symmetric example_graph.
Proof.
  split.
  - split; [cbn; lia|]. intros u Hu. cbn in Hu.
    destruct u as [|[|[|[|[|]]]]]; [eexists; split; [reflexivity|repeat constructor; cbn; lia]..|lia].
  - intros u v (l & Hl & Hv). pose proof (row_lt _ _ _ Hl) as Hu. cbn in Hu.
    destruct u as [|[|[|[|[|]]]]]; [..|lia]; cbn in Hl; injection Hl as <-; cbn in Hv; rewrite ?elem_of_cons, ?elem_of_nil in Hv;
      [destruct Hv as [-> |[]]|destruct Hv|destruct Hv as [-> |[]]|destruct Hv as [-> |[]]|destruct Hv as [-> |[]]];
      (eexists; split; [reflexivity|cbn; set_solver]).
Qed.
Example components_example : getComponentsUndirected example_graph = Ok [[0; 2]; [1]; [3; 4]].
Proof. vm_compute. reflexivity. Qed.
Example dfs_example : depthFirstSearch example_graph 3 = Ok [3; 4].
Proof. vm_compute. reflexivity. Qed.

(** C29.  The graph of a non-empty edge list has one row per vertex number up to
    the largest one mentioned; the row of u is strictly increasing and lists
    exactly the v with an edge (u,v) in the list (or (v,u), if undirected), so
    every cell is initialised and repeated pairs count once.  [fill] is the
    uninitialised memory, [shuffle]/[shuffle_row] the hash tables' iteration
    orders. *)
Theorem crs_graph_has_the_listed_edges fill shuffle shuffle_row undirected from to :
  (forall x, shuffle x ≡ₚ x) -> (forall x, shuffle_row x ≡ₚ x) -> from <> [] ->
  exists g, makeCrsGraph fill shuffle shuffle_row undirected from to = Ok g /\
    crs_rows g = S (foldr Nat.max 0 (map (fun e => Nat.max e.1 e.2) (zip from to))) /\
    forall u, u < crs_rows g -> exists l, row g u = Ok l /\ StronglySorted lt l /\
      forall v, v ∈ l <-> listed undirected from to u v.
Proof. exact (make_crs_graph_ok fill shuffle shuffle_row undirected from to). Qed.
Print Assumptions crs_graph_has_the_listed_edges.

(** An empty edge list gives the graph without rows. *)
Theorem crs_graph_of_no_edges fill shuffle shuffle_row undirected to :
  exists g, makeCrsGraph fill shuffle shuffle_row undirected [] to = Ok g /\ crs_rows g = 0.
Proof. exists crs_empty. split; reflexivity. Qed.
Print Assumptions crs_graph_of_no_edges.

(** The two together, as used for periodic boundaries
    (bcs/PeriodicBC.hpp:258-261): components of the undirected graph of an edge
    list are the classes of nodes connected by chains of listed pairs. *)
Theorem components_of_edge_list fill shuffle shuffle_row from to :
  (forall x, shuffle x ≡ₚ x) -> (forall x, shuffle_row x ≡ₚ x) ->
  exists comps, (makeCrsGraph fill shuffle shuffle_row true from to ≫= getComponentsUndirected) = Ok comps /\
    NoDup (concat comps) /\
    (forall u v, listed true from to u v -> u ∈ concat comps /\ v ∈ concat comps) /\
    forall u v, u ∈ concat comps -> v ∈ concat comps ->
      (exists c, c ∈ comps /\ u ∈ c /\ v ∈ c) <-> rtc (listed true from to) u v.
Proof. exact (pipeline_ok fill shuffle shuffle_row from to). Qed.
Print Assumptions components_of_edge_list.

Example crs_graph_example :
  makeCrsGraph (fun k => 77 + k) (@rev _) (@rev _) true [1; 3; 1; 1] [2; 1; 0; 2] =
  Ok {| crs_offs := [0; 1; 4; 5; 6]; crs_adj := [1; 0; 2; 3; 1; 1] |}.
Proof. vm_compute. reflexivity. Qed.
Example crs_graph_example_hyps : (forall x : list (nat * list nat), rev x ≡ₚ x) /\ (forall x : list nat, rev x ≡ₚ x).
Proof. split; intros x; symmetry; apply Permutation_rev. Qed.
