(** Model of mesh/primitives/LineMesh.hpp, SquareMesh.hpp and CubeMesh.hpp.
    Coordinates are of an arbitrary type [C]. *)
From Verif Require Import Base StdAlgo Ownership_model Elem_model Mesh_model.

(** The domain map under construction and the next element id. *)
Notation build V := (dmap (domain V) * nat)%type.
(** domains[id]: an empty domain is created if there is none. *)
Definition touch {V} (id : nat) (m : dmap (domain V)) : dmap (domain V) := dm_emplace id (empty_domain [1]) m.
(** emplaceInDomain<t, 1>(domains[id], nodes, verts, el_ind++). *)
Definition emplace {V} (id : nat) (t : etype) (nodes : list nat) (verts : list V) (st : build V) : res (build V) :=
  d ← pushToDomain [1] (default (empty_domain [1]) (dm_find id st.1)) (mk_el t 1 nodes verts st.2);
  Ok (dm_set id d st.1, st.2 + 1).

Section prim.
  Context {C : Type} (zero : C).
  Notation pt := (C * C * C)%type.
  Context (sched : list (element pt) -> list (element pt)) (shuffle : list nat -> list nat).
  (** Point{x, y, z} from subscripted coordinate arrays. *)
  Definition point2 (distx disty : list C) (i j : nat) : res pt :=
    x ← rd distx i; y ← rd disty j; Ok (x, y, zero).
  Definition point3 (distx disty distz : list C) (i j k : nat) : res pt :=
    x ← rd distx i; y ← rd disty j; z ← rd distz k; Ok (x, y, z).

  (** LineMesh.hpp:8-26.  For an empty array n_dx - 1 wraps around; reserve
      throws std::length_error. *)
  Definition makeLineMesh (distx : list C) (domain_id : nat) : res (mesh pt) :=
    let n_dx := length distx in
    let e_dx := n_dx - 1 in
    if n_dx =? 0 then Throw else
    st ← for_each (fun id st =>
           x0 ← rd distx id; x1 ← rd distx (id + 1);
           emplace domain_id Line [id; id + 1] [(x0, zero, zero); (x1, zero, zero)] st)
         (seq 0 e_dx) (touch domain_id [], 0);
    make_mesh2 sched shuffle st.1 0 n_dx [].

  (** SquareMesh.hpp:8-11: domain, bottom, top, left, right. *)
  Record square_ids := mk_sq { sq_domain : nat; sq_bottom : nat; sq_top : nat; sq_left : nat; sq_right : nat }.
  (** SquareMesh.hpp:13-76.  As above for empty arrays (some reserve throws). *)
  Definition makeSquareMesh (distx disty : list C) (ids : square_ids) : res (mesh pt) :=
    let n_dx := length distx in let n_dy := length disty in
    let e_dx := n_dx - 1 in let e_dy := n_dy - 1 in
    let p := point2 distx disty in
    if (n_dx =? 0) || (n_dy =? 0) then Throw else
    (* 23-28 *)
    let domains := foldl (fun m id => touch id m) [] [sq_domain ids; sq_bottom ids; sq_top ids; sq_left ids; sq_right ids] in
    (* 33-43 *)
    st ← for_each (fun iy => for_each (fun ix st =>
           v0 ← p ix iy; v1 ← p (ix + 1) iy; v2 ← p ix (iy + 1); v3 ← p (ix + 1) (iy + 1);
           emplace (sq_domain ids) Quad [n_dx * iy + ix; n_dx * iy + ix + 1; n_dx * (iy + 1) + ix; n_dx * (iy + 1) + ix + 1] [v0; v1; v2; v3] st)
         (seq 0 e_dx)) (seq 0 e_dy) (domains, 0);
    (* 46-58 *)
    st ← for_each (fun ix st =>
           v0 ← p ix 0; v1 ← p (ix + 1) 0; w0 ← p ix e_dy; w1 ← p (ix + 1) e_dy;
           st ← emplace (sq_bottom ids) Line [ix; ix + 1] [v0; v1] st;
           emplace (sq_top ids) Line (map (fun n => n + n_dx * e_dy) [ix; ix + 1]) [w0; w1] st)
         (seq 0 e_dx) st;
    (* 61-73 *)
    st ← for_each (fun iy st =>
           v0 ← p 0 iy; v1 ← p 0 (iy + 1); w0 ← p e_dx iy; w1 ← p e_dx (iy + 1);
           st ← emplace (sq_left ids) Line [iy * n_dx; (iy + 1) * n_dx] [v0; v1] st;
           emplace (sq_right ids) Line (map (fun n => n + e_dx) [iy * n_dx; (iy + 1) * n_dx]) [w0; w1] st)
         (seq 0 e_dy) st;
    make_mesh2 sched shuffle st.1 0 (n_dx * n_dy) [sq_bottom ids; sq_top ids; sq_left ids; sq_right ids].

  (** CubeMesh.hpp:8-11. *)
  Record cube_ids := mk_cu { cu_domain : nat; cu_back : nat; cu_front : nat; cu_bottom : nat; cu_top : nat; cu_left : nat; cu_right : nat }.
  (** CubeMesh.hpp:13-138.  If two arrays are empty the wrapped-around sizes can
      pass the reserve calls and an empty array is read, hence UB. *)
  Definition makeCubeMesh (distx disty distz : list C) (ids : cube_ids) : res (mesh pt) :=
    let n_dx := length distx in let n_dy := length disty in let n_dz := length distz in
    let e_dx := n_dx - 1 in let e_dy := n_dy - 1 in let e_dz := n_dz - 1 in
    let p := point3 distx disty distz in
    if (n_dx =? 0) || (n_dy =? 0) || (n_dz =? 0) then UB else
    (* 28-35 *)
    let domains := foldl (fun m id => touch id m) []
      [cu_domain ids; cu_back ids; cu_front ids; cu_bottom ids; cu_top ids; cu_left ids; cu_right ids] in
    (* 40-65 *)
    st ← for_each (fun iz => for_each (fun iy => for_each (fun ix st =>
           v0 ← p ix iy iz; v1 ← p (ix + 1) iy iz; v2 ← p ix (iy + 1) iz; v3 ← p (ix + 1) (iy + 1) iz;
           v4 ← p ix iy (iz + 1); v5 ← p (ix + 1) iy (iz + 1); v6 ← p ix (iy + 1) (iz + 1); v7 ← p (ix + 1) (iy + 1) (iz + 1);
           emplace (cu_domain ids) Hex
             [n_dx * n_dy * iz + n_dx * iy + ix; n_dx * n_dy * iz + n_dx * iy + ix + 1;
              n_dx * n_dy * iz + n_dx * (iy + 1) + ix; n_dx * n_dy * iz + n_dx * (iy + 1) + ix + 1;
              n_dx * n_dy * (iz + 1) + n_dx * iy + ix; n_dx * n_dy * (iz + 1) + n_dx * iy + ix + 1;
              n_dx * n_dy * (iz + 1) + n_dx * (iy + 1) + ix; n_dx * n_dy * (iz + 1) + n_dx * (iy + 1) + ix + 1]
             [v0; v1; v2; v3; v4; v5; v6; v7] st)
         (seq 0 e_dx)) (seq 0 e_dy)) (seq 0 e_dz) (domains, 0);
    (* 68-87 *)
    st ← for_each (fun iy => for_each (fun ix st =>
           let nodes1 := [n_dx * iy + ix; n_dx * iy + ix + 1; n_dx * (iy + 1) + ix; n_dx * (iy + 1) + ix + 1] in
           v0 ← p ix iy 0; v1 ← p (ix + 1) iy 0; v2 ← p ix (iy + 1) 0; v3 ← p (ix + 1) (iy + 1) 0;
           w0 ← p ix iy e_dz; w1 ← p (ix + 1) iy e_dz; w2 ← p ix (iy + 1) e_dz; w3 ← p (ix + 1) (iy + 1) e_dz;
           st ← emplace (cu_back ids) Quad nodes1 [v0; v1; v2; v3] st;
           emplace (cu_front ids) Quad (map (fun n => n + n_dx * n_dy * e_dz) nodes1) [w0; w1; w2; w3] st)
         (seq 0 e_dx)) (seq 0 e_dy) st;
    (* 90-111 *)
    st ← for_each (fun iz => for_each (fun ix st =>
           let nodes1 := [n_dx * n_dy * iz + ix; n_dx * n_dy * iz + ix + 1; n_dx * n_dy * (iz + 1) + ix; n_dx * n_dy * (iz + 1) + ix + 1] in
           v0 ← p ix 0 iz; v1 ← p (ix + 1) 0 iz; v2 ← p ix 0 (iz + 1); v3 ← p (ix + 1) 0 (iz + 1);
           w0 ← p ix e_dy iz; w1 ← p (ix + 1) e_dy iz; w2 ← p ix e_dy (iz + 1); w3 ← p (ix + 1) e_dy (iz + 1);
           st ← emplace (cu_bottom ids) Quad nodes1 [v0; v1; v2; v3] st;
           emplace (cu_top ids) Quad (map (fun n => n + n_dx * e_dy) nodes1) [w0; w1; w2; w3] st)
         (seq 0 e_dx)) (seq 0 e_dz) st;
    (* 114-135 *)
    st ← for_each (fun iz => for_each (fun iy st =>
           let nodes1 := [n_dx * n_dy * iz + n_dx * iy; n_dx * n_dy * iz + n_dx * (iy + 1);
                          n_dx * n_dy * (iz + 1) + n_dx * iy; n_dx * n_dy * (iz + 1) + n_dx * (iy + 1)] in
           v0 ← p 0 iy iz; v1 ← p 0 (iy + 1) iz; v2 ← p 0 iy (iz + 1); v3 ← p 0 (iy + 1) (iz + 1);
           w0 ← p e_dx iy iz; w1 ← p e_dx (iy + 1) iz; w2 ← p e_dx iy (iz + 1); w3 ← p e_dx (iy + 1) (iz + 1);
           st ← emplace (cu_left ids) Quad nodes1 [v0; v1; v2; v3] st;
           emplace (cu_right ids) Quad (map (fun n => n + e_dx) nodes1) [w0; w1; w2; w3] st)
         (seq 0 e_dy)) (seq 0 e_dz) st;
    make_mesh2 sched shuffle st.1 0 (n_dx * n_dy * n_dz)
      [cu_back ids; cu_front ids; cu_bottom ids; cu_top ids; cu_left ids; cu_right ids].
End prim.
