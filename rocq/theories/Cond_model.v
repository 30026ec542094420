(** Model of algsys/StaticCondensationManager.hpp (element boundary policy),
    scatterLocalSystem in algsys/ScatterLocalSystem.hpp and getDofsFromNodes in
    dofs/DofsFromNodes.hpp.  Matrices are functions of row and column, with the sizes
    kept beside them; writes are checked against the sizes, reads of a local matrix are
    not.  Numbers are elements of a ring: no rounding.  The inverse (Eigen) is a
    parameter.  The m_internal_dof_inds of all elements are kept per element. *)
From Verif Require Import Base StdAlgo Elem_model Mesh_model Partition_model LocalView_model.

(** Local dofs of a node in the row, column and right-hand side maps
    (NodeToLocalDofMap with 3 maps). *)
Definition dof_triplet : Type := list (option nat) * list (option nat) * list (option nat).

Section inds.
  Context {V : Type}.
  Context (D : nat) (dofs : nat -> res dof_triplet).
  Definition is_valid (d : option nat) : bool := match d with Some _ => true | None => false end.
  (** compute_elem_dof_info, 267-287: the number of dofs on the boundary of the element,
      and the components valid at all boundary nodes. *)
  Definition compute_elem_dof_info (e : element V) : res (nat * list bool) :=
    ns ← boundary_nodes e;
    rows ← map_res (fun n => t ← dofs n; Ok (map (fun d => negb (is_valid d)) t.1.1)) ns;
    let '(n, bmp) := foldl (fun (p : nat * list bool) bmp => (p.1 + length (List.filter negb bmp), zip_with orb p.2 bmp)) (0, replicate D false) rows in
    Ok (n, map negb bmp).
  (** insert_elem_info, 288-304: the interior components and the sizes of the blocks. *)
  Record cond_dims := { cd_inds : list nat; cd_bnd : nat; cd_int : nat }.
  Definition insert_elem_info (e : element V) : res cond_dims :=
    '(n_bnd, bmp) ← compute_elem_dof_info e;
    let inds := List.filter (fun i => nth i bmp false) (seq 0 (length bmp)) in
    Ok {| cd_inds := inds; cd_bnd := n_bnd; cd_int := length (internal_node_inds (el_type e) (el_order e)) * length inds |}.

  (** LocalDofInds, 140-150. *)
  Record local_inds := { li_psrc : list nat; li_pdest : list nat; li_csrc : list nat; li_cdest : list nat }.
  (** inds_to_bmp, 489-494. *)
  Definition inds_to_bmp (inds : list nat) : res (list bool) := for_each (fun i v => wr v i true) inds (replicate D false).
  (** State of the loops 499-533: boundary_ind_iter, local_system_ind, primary_ind,
      cond_ind, and the parts of the arrays written so far. *)
  Record ld_state := { ls_iter : nat; ls_sys : nat; ls_prim : nat; ls_cond : nat; ls_inds : local_inds }.
  (** A write at the position of the write index, which is then incremented. *)
  Definition push (cap : nat) (l : list nat) (x : nat) : res (list nat) := if length l <? cap then Ok (l ++ [x]) else UB.
  (** 509-518. *)
  Definition boundary_step (cap : nat) (active : list bool) (row : list (option nat)) (i : nat) (s : ld_state) : res ld_state :=
    a ← rd active i;
    if (a : bool) then
      ps ← push cap (li_psrc (ls_inds s)) (ls_sys s);
      pd ← push cap (li_pdest (ls_inds s)) (ls_prim s);
      Ok {| ls_iter := ls_iter s; ls_sys := S (ls_sys s); ls_prim := S (ls_prim s); ls_cond := ls_cond s;
            ls_inds := {| li_psrc := ps; li_pdest := pd; li_csrc := li_csrc (ls_inds s); li_cdest := li_cdest (ls_inds s) |} |}
    else
      d ← rd row i;
      Ok {| ls_iter := ls_iter s; ls_sys := ls_sys s; ls_prim := if is_valid d then S (ls_prim s) else ls_prim s; ls_cond := ls_cond s; ls_inds := ls_inds s |}.
  (** 522-531. *)
  Definition internal_step (cap : nat) (active internal : list bool) (i : nat) (s : ld_state) : res ld_state :=
    a ← rd active i;
    if (a : bool) then
      cs ← push cap (li_csrc (ls_inds s)) (ls_sys s);
      cd ← push cap (li_cdest (ls_inds s)) (ls_cond s);
      Ok {| ls_iter := ls_iter s; ls_sys := S (ls_sys s); ls_prim := ls_prim s; ls_cond := S (ls_cond s);
            ls_inds := {| li_psrc := li_psrc (ls_inds s); li_pdest := li_pdest (ls_inds s); li_csrc := cs; li_cdest := cd |} |}
    else
      b ← rd internal i;
      Ok {| ls_iter := ls_iter s; ls_sys := ls_sys s; ls_prim := ls_prim s; ls_cond := if (b : bool) then S (ls_cond s) else ls_cond s; ls_inds := ls_inds s |}.
  (** computeLocalDofInds, 482-535; the rest of the arrays is zero (499).  The iterator
      must not be past the end when it is read (505). *)
  Definition computeLocalDofInds (e : element V) (internal_inds field_inds : list nat) : res local_inds :=
    let bnd := boundary_node_inds (el_type e) (el_order e) in
    let cap_p := length field_inds * length bnd in
    let cap_c := length field_inds * length (internal_node_inds (el_type e) (el_order e)) in
    active ← inds_to_bmp field_inds;
    internal ← inds_to_bmp internal_inds;
    s ← for_each (fun (z : nat * nat) s =>
          b ← rd bnd (ls_iter s);
          if b =? z.1 then
            t ← dofs z.2;
            for_each (boundary_step cap_p active t.1.1) (seq 0 D)
              {| ls_iter := S (ls_iter s); ls_sys := ls_sys s; ls_prim := ls_prim s; ls_cond := ls_cond s; ls_inds := ls_inds s |}
          else for_each (internal_step cap_c active internal) (seq 0 D) s)
        (zip (seq 0 (length (el_nodes e))) (el_nodes e))
        {| ls_iter := 0; ls_sys := 0; ls_prim := 0; ls_cond := 0; ls_inds := {| li_psrc := []; li_pdest := []; li_csrc := []; li_cdest := [] |} |};
    let pad (cap : nat) (l : list nat) := l ++ replicate (cap - length l) 0 in
    let l := ls_inds s in
    Ok {| li_psrc := pad cap_p (li_psrc l); li_pdest := pad cap_p (li_pdest l); li_csrc := pad cap_c (li_csrc l); li_cdest := pad cap_c (li_cdest l) |}.

  (** getDofsFromNodes, DofsFromNodes.hpp:69-87 (given components) and 89-103 (all
      valid dofs), for one of the three maps. *)
  Definition dofs_at (sel : dof_triplet -> list (option nat)) (inds ns : list nat) : res (list (option nat)) :=
    rows ← map_res (fun n => t ← dofs n; map_res (rd (sel t)) inds) ns; Ok (concat rows).
  Definition dofs_valid (sel : dof_triplet -> list (option nat)) (ns : list nat) : res (list (option nat)) :=
    rows ← map_res (fun n => t ← dofs n; Ok (List.filter is_valid (sel t))) ns; Ok (concat rows).
End inds.

Section blocks.
  Context {F : Type} (zero : F) (add mul : F -> F -> F) (opp : F -> F).
  Notation mat := (nat -> nat -> F).
  Definition upd (m : mat) (i j : nat) (v : F) : mat := fun i' j' => if (i' =? i) && (j' =? j) then add (m i' j') v else m i' j'.
  (** [m(i, j) += v] in a matrix of size [r] by [c]. *)
  Definition madd (r c : nat) (m : mat) (i j : nat) (v : F) : res mat := if (i <? r) && (j <? c) then Ok (upd m i j v) else UB.
  (** The global matrix and right-hand sides; sumIntoLocalValues adds at an existing
      entry of the row (C41), an invalid dof is out of bounds. *)
  Definition gsys : Type := mat * mat.
  Definition gadd (m : mat) (i j : option nat) (v : F) : res mat :=
    match i, j with Some i, Some j => Ok (upd m i j v) | _, _ => UB end.
  (** scatterLocalSystem, ScatterLocalSystem.hpp:24-54; [size]: rows of the local
      system, [nr]: number of right-hand sides. *)
  Definition scatter (size nr : nat) (a b : mat) (rows cols rhs : list (option nat)) (g : gsys) : res gsys :=
    for_each (fun k (g : gsys) =>
      r ← rd rows k;
      m ← for_each (fun l m => c ← rd cols l; gadd m r c (a k l)) (seq 0 size) g.1;
      h ← rd rhs k;
      v ← for_each (fun i v => gadd v h (Some i) (b k i)) (seq 0 nr) g.2;
      Ok (m, v)) (seq 0 size) g.
  (** ElementCondData, 152-157. *)
  Record cond_data := { cd_dims : cond_dims; cd_diag : mat; cd_inv : mat; cd_upper : mat; cd_rhs : mat }.
  (** beginAssemblyImpl, 311-319, for one element. *)
  Definition begin_element (d : cond_data) : cond_data :=
    {| cd_dims := cd_dims d; cd_diag := fun _ _ => zero; cd_inv := cd_inv d; cd_upper := fun _ _ => zero; cd_rhs := fun _ _ => zero |}.

  Context {V : Type} (D : nat) (dofs : nat -> res dof_triplet).
  (** condenseSystemImpl, 348-407; [a], [b]: the element matrix and right-hand sides. *)
  Definition condenseSystem (nr : nat) (field_inds : list nat) (a b : mat) (e : element V) (d : cond_data) (g : gsys) : res (cond_data * gsys) :=
    li ← computeLocalDofInds D dofs e (cd_inds (cd_dims d)) field_inds;
    ns ← boundary_nodes e;
    rows ← dofs_at dofs (fun t => t.1.1) field_inds ns;
    cols ← dofs_at dofs (fun t => t.1.2) field_inds ns;
    rhs ← dofs_at dofs (fun t => t.2) field_inds ns;
    let src i := nth i (li_psrc li) 0 in
    g ← scatter (length (li_psrc li)) nr (fun i j => a (src i) (src j)) (fun i r => b (src i) r) rows cols rhs g;
    let n := cd_int (cd_dims d) in
    let cs := zip (li_csrc li) (li_cdest li) in
    let ps := zip (li_psrc li) (li_pdest li) in
    '(diag, rh) ← for_each (fun (z : nat * nat) (st : mat * mat) =>
        diag ← for_each (fun (w : nat * nat) m => madd n n m z.2 w.2 (a z.1 w.1)) cs st.1;
        rh ← for_each (fun i m => madd n nr m z.2 i (b z.1 i)) (seq 0 nr) st.2;
        Ok (diag, rh)) cs (cd_diag d, cd_rhs d);
    upper ← for_each (fun (z : nat * nat) m => for_each (fun (w : nat * nat) m => madd (cd_bnd (cd_dims d)) n m z.2 w.2 (a z.1 w.1)) cs m) ps (cd_upper d);
    Ok ({| cd_dims := cd_dims d; cd_diag := diag; cd_inv := cd_inv d; cd_upper := upper; cd_rhs := rh |}, g).

  Definition msum (n : nat) (f : nat -> F) : F := foldr (fun i s => add (f i) s) zero (seq 0 n).
  (** finalize_element in endAssemblyImpl, 333-343; [inverse n m]: what Eigen returns. *)
  Definition finalize_element (inverse : nat -> mat -> mat) (nr : nat) (e : element V) (d : cond_data) (g : gsys) : res (cond_data * gsys) :=
    let n := cd_int (cd_dims d) in
    let p := cd_bnd (cd_dims d) in
    let inv := inverse n (cd_diag d) in
    let u := cd_upper d in
    let ui i k := msum n (fun j => mul (u i j) (inv j k)) in
    ns ← boundary_nodes e;
    rows ← dofs_valid dofs (fun t => t.1.1) ns;
    cols ← dofs_valid dofs (fun t => t.1.2) ns;
    rhs ← dofs_valid dofs (fun t => t.2) ns;
    g ← scatter p nr (fun i j => opp (msum n (fun k => mul (ui i k) (u j k)))) (fun i r => opp (msum n (fun k => mul (ui i k) (cd_rhs d k r)))) rows cols rhs g;
    Ok ({| cd_dims := cd_dims d; cd_diag := cd_diag d; cd_inv := inv; cd_upper := u; cd_rhs := cd_rhs d |}, g).

  (** do_element in recoverSolutionImpl, 432-470; [x r i]: entry [i] of solution [r].
      The result: (node, component, right-hand side, value) of the values written. *)
  Definition recover_element (nr : nat) (x : mat) (sol_inds : list nat) (e : element V) (d : cond_data) : res (list (nat * nat * nat * F)) :=
    let n := cd_int (cd_dims d) in
    ns ← boundary_nodes e;
    rhs ← dofs_valid dofs (fun t => t.2) ns;
    prim ← map_res (fun h => match h with Some h => Ok h | None => UB end) rhs;
    let vals k r := msum n (fun j => mul (cd_inv d k j) (add (cd_rhs d j r) (opp (msum (length prim) (fun i => mul (cd_upper d i j) (x r (nth i prim 0))))))) in
    let inds := cd_inds (cd_dims d) in
    let lookup := (foldl (fun (st : list (option nat) * nat) i => if binary_search inds i then (st.1 ++ [Some st.2], S st.2) else (st.1 ++ [None], st.2)) ([], 0) (seq 0 D)).1 in
    ints ← getInternalNodes e;
    ws ← map_res (fun z : nat * nat =>
      ws ← map_res (fun c => l ← rd lookup c; match l with
        | Some l => let k := z.1 * length inds + l in if k <? n then Ok (map (fun r => (z.2, c, r, vals k r)) (seq 0 nr)) else UB
        | None => Ok [] end) sol_inds;
      Ok (concat ws)) (zip (seq 0 (length ints)) ints);
    Ok (concat ws).

  (** The manager: [ids]: m_element_ids, [elem id]: mesh.find(id).value(), the state:
      m_elem_data_map and the global system.  The map is a function on the ids, at()
      throws for other ids. *)
  Context (ids : list nat) (elem : nat -> element V).
  Definition cstate : Type := (nat -> cond_data) * gsys.
  Definition set_data (data : nat -> cond_data) (id : nat) (d : cond_data) : nat -> cond_data := fun j => if j =? id then d else data j.
  (** A call of condenseSystem by assembleGlobalSystem: the element, the components, the
      element matrix and right-hand sides. *)
  Record kernel_call := { kc_el : nat; kc_fields : list nat; kc_a : mat; kc_b : mat }.
  Definition condense_call (nr : nat) (c : kernel_call) (st : cstate) : res cstate :=
    if bool_decide (kc_el c ∈ ids) then
      '(d, g) ← condenseSystem nr (kc_fields c) (kc_a c) (kc_b c) (elem (kc_el c)) (st.1 (kc_el c)) st.2;
      Ok (set_data st.1 (kc_el c) d, g)
    else Throw.
  Definition finalize_call (inverse : nat -> mat -> mat) (nr : nat) (id : nat) (st : cstate) : res cstate :=
    if bool_decide (id ∈ ids) then
      '(d, g) ← finalize_element inverse nr (elem id) (st.1 id) st.2;
      Ok (set_data st.1 id d, g)
    else Throw.
  (** beginAssembly, the calls of condenseSystem, endAssembly.  The calls and the
      elements of the parallel loop (328) are taken one after the other, in any order
      [calls], [ord]: every call works on the data of its element only, which the
      parallel loop over elements visits once per kernel, and adds atomically to the
      global system (ScatterLocalSystem.hpp:38,50). *)
  Definition assemble_condensed (inverse : nat -> mat -> mat) (nr : nat) (calls : list kernel_call) (ord : list nat) (st : cstate) : res cstate :=
    st ← for_each (condense_call nr) calls ((fun id => begin_element (st.1 id)), st.2);
    for_each (finalize_call inverse nr) ord st.
End blocks.
