(** Evaluation of an element's operator by sum factorisation,
    include/l3ster/algsys/SumFactorization.hpp, and the direct evaluation it replaces
    (the quadrature points of EvaluateLocalOperator.hpp).  Numbers are reals.  Buffers are
    lists; matrices that are compile-time constants are functions of two indices.  A
    buffer accessed through an Eigen::Map of K rows and N columns has entry (k, n) at
    k + K * n (column-major) or k * N + n (row-major). *)
From Coq Require Import Reals.
From Verif Require Import Base Elem_model Poly_model Basis_model Gauss_model Geom_model LocalSys_model.
Local Open Scope R_scope.
Notation mat := (nat -> nat -> R).

(** ** The sweeps *)
(** Assignment or accumulation of one entry: the Combine functors, 217, 242-258, and = or += of
    Eigen. *)
Definition combine (acc : bool) (out : list R) (i : nat) (v : R) : res (list R) := o ← rd out i; wr out i (if acc then o + v else v).
(** sumFactSweep...Standard, 66-85: out (N rows, Q columns) is assigned or incremented by
    the transpose of in (K rows, N columns) times M (K rows, Q columns). *)
Definition sweepStandard (acc : bool) (K N Q : nat) (M : mat) (inb outb : list R) : res (list R) :=
  for_each (fun q out => for_each (fun n out =>
    v ← for_each (fun k s => x ← rd inb (k + K * n)%nat; Ok (s + x * M k q)) (seq 0 K) 0; combine acc out (n + N * q)%nat v) (seq 0 N) out) (seq 0 Q) outb.
(** makePsiPlusImpl, makePsiMinusImpl, 87-109; their sizes are (K + 1) / 2 and K / 2 rows. *)
Definition psiPlus (K : nat) (M : mat) : mat := fun r c => if (r <? K / 2)%nat then M r c + M (K - r - 1)%nat c else M (K / 2)%nat c.
Definition psiMinus (K : nat) (M : mat) : mat := fun r c => M r c - M (K - r - 1)%nat c.
(** makeEO, 159-180, column n. *)
Definition makeEO (K : nat) (inb : list R) (n : nat) : res (list R * list R) :=
  eo ← map_res (fun r => v1 ← rd inb (r + K * n)%nat; v2 ← rd inb (K - r - 1 + K * n)%nat; Ok (/ 2 * (v1 + v2), / 2 * (v1 - v2))) (seq 0 (K / 2));
  mid ← (if (K / 2 <? (K + 1) / 2)%nat then x ← rd inb (K / 2 + K * n)%nat; Ok [x] else Ok []);
  Ok (map fst eo ++ mid, map snd eo).
(** sumFactSweepInterpOddEvenBlock, sumFactSweepDerOddEvenBlockImpl with
    reconstructOddEven, 182-234, for the columns c0 .. c0 + size - 1 of in. *)
Definition row_times (l : list R) (M : mat) (c : nat) : R := dot (length l) (fun k => nth k l 0) (fun k => M k c).
Definition oddEvenBlock (der acc : bool) (K N Q : nat) (M : mat) (inb : list R) (c0 size : nat) (outb : list R) : res (list R) :=
  eo ← map_res (makeEO K inb) (seq c0 size);
  let e_prime r c := row_times (nth r eo ([], [])).1 (psiPlus K M) c in
  let o_prime r c := row_times (nth r eo ([], [])).2 (psiMinus K M) c in
  let first := if der then o_prime else e_prime in
  let second := if der then e_prime else o_prime in
  out ← for_each (fun c out => for_each (fun r out =>
    out ← combine acc out (c0 + r + N * c)%nat (first r c + second r c);
    combine acc out (c0 + r + N * (Q - c - 1))%nat (first r c - second r c)) (seq 0 size) out) (seq 0 (Q / 2)) outb;
  if (Q / 2 <? (Q + 1) / 2)%nat then for_each (fun r out => combine acc out (c0 + r + N * (Q / 2))%nat (first r ((Q + 1) / 2 - 1)%nat)) (seq 0 size) out else Ok out.
(** sumFactSweep...OddEven, 260-342; block_size is simd_width / 2. *)
Definition sweepOddEven (bs : nat) (der acc : bool) (K N Q : nat) (M : mat) (inb outb : list R) : res (list R) :=
  out ← for_each (fun block out => oddEvenBlock der acc K N Q M inb (block * bs)%nat bs out) (seq 0 (N / bs)) outb;
  if (0 <? N mod bs)%nat then oddEvenBlock der acc K N Q M inb (N - N mod bs)%nat (N mod bs)%nat out else Ok out.
(** Eigen products are noalias and the blocks read and write interleaved: source and
    destination must be different buffers, which the programs below show. *)
Definition sweep (oe : option nat) (der acc : bool) (K N Q : nat) (M : mat) (inb outb : list R) : res (list R) :=
  match oe with Some bs => sweepOddEven bs der acc K N Q M inb outb | None => sweepStandard acc K N Q M inb outb end.

(** ** The transforms *)
Section transforms.
  (** n_bases1d, n_qps1d, the interpolation and the derivative matrix, use_odd_even with
      the block size. *)
  Context (nb nq : nat) (Im Dm : mat) (oe : option nat).
  (** buf_size, 385-396. *)
  Definition buf_size (nf dim : nat) : nat := (Nat.max (nb ^ dim) (nq ^ dim) * nf)%nat.
  (** One call of sumFactSweepBackInterp / Der, 344-362, on buffers number src and dst, with
      the map types x_s and y_s. *)
  Definition back (nf dim s : nat) (der : bool) (src dst : nat) (bufs : list (list R)) : res (list (list R)) :=
    a ← rd bufs src; b ← rd bufs dst;
    b ← sweep oe der false nb (nf * nq ^ s * nb ^ (dim - 1 - s))%nat nq (if der then Dm else Im) a b;
    wr bufs dst b.
  (** sumFactSweepForwardInterpAssign / DerAccumulate, 363-383. *)
  Definition forward (nf dim s : nat) (der : bool) (src dst : nat) (bufs : list (list R)) : res (list (list R)) :=
    a ← rd bufs src; b ← rd bufs dst;
    b ← sweep oe der der nq (nf * nb ^ s * nq ^ (dim - 1 - s))%nat nb (if der then fun q b => Dm b q else fun q b => Im b q) a b;
    wr bufs dst b.
  Definition itp := false. Definition dif := true.
  (** sumFactBackQuad, 438-468; buffers r0, r1, r2, temp, uninitialised. *)
  Definition sumFactBackQuad (nf : nat) (fill : list R -> res (list R)) (bufs : list (list R)) : res (list (list R)) :=
    r ← rd bufs 1; r ← fill r; bufs ← wr bufs 1 r;
    bufs ← back nf 2 0 itp 1 3 bufs; bufs ← back nf 2 1 dif 3 2 bufs; bufs ← back nf 2 1 itp 3 0 bufs;
    bufs ← back nf 2 0 dif 1 3 bufs; back nf 2 1 itp 3 1 bufs.
  (** sumFactBackHex, 470-505; buffers r0, r1, r2, r3, temp. *)
  Definition sumFactBackHex (nf : nat) (fill : list R -> res (list R)) (bufs : list (list R)) : res (list (list R)) :=
    r ← rd bufs 3; r ← fill r; bufs ← wr bufs 3 r;
    bufs ← back nf 3 0 itp 3 0 bufs; bufs ← back nf 3 0 dif 3 1 bufs; bufs ← back nf 3 1 itp 1 3 bufs;
    bufs ← back nf 3 2 itp 3 1 bufs; bufs ← back nf 3 1 dif 0 3 bufs; bufs ← back nf 3 2 itp 3 2 bufs;
    bufs ← back nf 3 1 itp 0 4 bufs; bufs ← back nf 3 2 itp 4 0 bufs; back nf 3 2 dif 4 3 bufs.
  Definition sumFactBack (dim nf : nat) := if (dim =? 2)%nat then sumFactBackQuad nf else sumFactBackHex nf.
  (** sumFactForwardQuad, 758-782; buffers t0, t1, t2, temp. *)
  Definition sumFactForwardQuad (nf : nat) (bufs : list (list R)) : res (list (list R)) :=
    bufs ← forward nf 2 0 itp 0 3 bufs; bufs ← forward nf 2 0 dif 1 3 bufs; bufs ← forward nf 2 1 itp 3 0 bufs;
    bufs ← forward nf 2 0 itp 2 3 bufs; forward nf 2 1 dif 3 0 bufs.
  (** sumFactForwardHex, 784-814; buffers t0, t1, t2, t3, temp. *)
  Definition sumFactForwardHex (nf : nat) (bufs : list (list R)) : res (list (list R)) :=
    bufs ← forward nf 3 0 itp 0 4 bufs; bufs ← forward nf 3 0 dif 1 4 bufs; bufs ← forward nf 3 1 itp 4 1 bufs;
    bufs ← forward nf 3 0 itp 2 4 bufs; bufs ← forward nf 3 1 dif 4 1 bufs; bufs ← forward nf 3 2 itp 1 0 bufs;
    bufs ← forward nf 3 0 itp 3 1 bufs; bufs ← forward nf 3 1 itp 1 3 bufs; forward nf 3 2 dif 3 0 bufs.
  Definition sumFactForward (dim nf : nat) := if (dim =? 2)%nat then sumFactForwardQuad nf else sumFactForwardHex nf.
End transforms.

(** makeInterpolationMatrix, makeDerivativeMatrix, 24-49: row = basis function, column =
    point. *)
Definition interpolationMatrix (absc : list R) (qps : list (list R)) : res mat := b ← evalRefBasisAtPoints Line absc qps; Ok (fun bi qi => ent b.1 qi bi).
Definition derivativeMatrix (absc : list R) (qps : list (list R)) : res mat := b ← evalRefBasisAtPoints Line absc qps; Ok (fun bi qi => ent (nth qi b.2 []) 0 bi).

(** ** The element *)
(** Equation kernels, common/KernelInterface.hpp: field values, field derivatives (one list
    per direction), point, time to operators A0, A1, ... and right-hand sides. *)
Notation kernel_t := (list R -> list (list R) -> list R -> R -> list mat * mat).
(** computeGeomDataLin, 506-537: coordinate d of vertex i goes to i + num_verts * d. *)
Definition fill_coords (dim : nat) (vertices : list (list R)) (buf : list R) : res (list R) :=
  for_each (fun iv buf => for_each (fun d buf => x ← rd iv.2 d; wr buf (iv.1 + length vertices * d)%nat x) (seq 0 dim) buf) (zip (seq 0 (length vertices)) vertices) buf.
(** FieldAccess::fill, post/FieldAccess.hpp:21-30, of the right columns of a column-major
    matrix (901-909): [fields] are the field indices, [stride] the local size, [data] the
    values. *)
Definition field_fill (fields : list nat) (stride : nat) (data : list R) (nodes : list nat) (nops : nat) (buf : list R) : res (list R) :=
  for_each (fun rn buf => for_each (fun cf buf => v ← rd data (rn.2 + cf.2 * stride)%nat; wr buf (rn.1 + length nodes * (nops + cf.1))%nat v) (zip (seq 0 (length fields)) fields) buf)
    (zip (seq 0 (length nodes)) nodes) buf.
(** The quadrature points in the order of the loops 643-648, 707-715: x varies fastest. *)
Definition qp_inds (dim nq : nat) : list (list nat) :=
  if (dim =? 2)%nat then map (fun yx => [yx.2; yx.1]) (loop2 nq) else map (fun zyx => [zyx.2; zyx.1.2; zyx.1.1]) (loop3 nq).
Definition lin (n : nat) (q : list nat) : nat := foldr (fun i a => i + n * a)%nat O q.
(** evalAtQuadQPs, evalAtHexQPs, 572-755, at one point; [bk], [geom], [out] are the
    buffers, nu * nr = num_operands, nf = n_fields.  The kernel gets 0 as the third
    coordinate for both element types, 656, 732. *)
Definition evalAtQP (dim nq nu us nr nf : nat) (kernel : kernel_t) (time : R) (weights : list R) (bk geom : list (list R)) (q : list nat) (out : list (list R)) : res (list (list R)) :=
  let qi := lin nq q in
  let nops := (nu * nr)%nat in
  let row b w j := (x ← rd b (qi * w + j)%nat; Ok x) in
  J ← map_res (fun i => map_res (fun k => b ← rd geom (S k); row b dim i) (seq 0 dim)) (seq 0 dim);
  let jac_inv := inverse dim J in
  b0 ← rd bk 0; ders ← map_res (fun k => rd bk (S k)) (seq 0 dim); g0 ← rd geom 0;
  fv ← map_res (fun i => row b0 (nops + nf)%nat (nops + i)%nat) (seq 0 nf);
  fd ← map_res (fun d => map_res (fun i => l ← map_res (fun b => row b (nops + nf)%nat (nops + i)%nat) ders; Ok (dot dim (fun k => ent jac_inv k d) (fun k => nth k l 0))) (seq 0 nf)) (seq 0 dim);
  px ← row g0 dim 0%nat; py ← row g0 dim 1%nat;
  let ops := (kernel fv fd [px; py; 0] time).1 in
  A0 ← rd ops 0;
  As ← map_res (fun i => rd ops (S i)) (seq 0 dim);
  let Dk k : mat := fun e u => dot dim (fun i => nth i As (fun _ _ => 0) e u) (fun i => ent jac_inv k i) in
  t0 ← map_res (row b0 (nops + nf)%nat) (seq 0 nops); ts ← map_res (fun b => map_res (row b (nops + nf)%nat) (seq 0 nops)) ders;
  ws ← map_res (rd weights) q;
  let wgt := foldr Rmult (determinant dim J) ws in
  let t e r := wgt * (dot nu (fun u => A0 e u) (fun u => nth (u + nu * r) t0 0) + dot dim (fun _ => 1) (fun k => dot nu (fun u => Dk k e u) (fun u => nth (u + nu * r) (nth k ts []) 0))) in
  for_each (fun k out => b ← rd out k; b ← for_each (fun r b => for_each (fun u b =>
      wr b (qi + nq ^ dim * (u + nu * r))%nat (dot us (fun e => match k with O => A0 e u | S k => Dk k e u end) (fun e => t e r))) (seq 0 nu) b) (seq 0 nr) b; wr out k b)
    (seq 0 (S dim)) out.
(** sumFactImpl, 816-868, evalLocalOperatorSumFact, 882-917.  [junk] is the initial content
    of the uninitialised buffers: array 0 for the element, 1 for the geometry, 2 for the
    values at the points; [absc] are the nodes of the basis, [ref] the reference
    quadrature.  Result: what y_scatter gets. *)
Definition bufs_of (junk : nat -> nat -> R) (n size : nat) : list (list R) := map (fun k => map (junk k) (seq 0 size)) (seq 0 n).
Definition evalLocalOperatorSumFact (oe : option nat) (dim nu us nr : nat) (kernel : kernel_t) (time : R) (absc : list R) (ref : list (list R) * list R)
  (vertices : list (list R)) (nodes : list nat) (x_gather : list R -> res (list R)) (fields : list nat) (stride : nat) (data : list R) (junk : nat -> nat -> nat -> R) : res (list R) :=
  let nf := length fields in
  let nops := (nu * nr)%nat in
  let nb := length absc in
  let nq := length ref.2 in
  Im ← interpolationMatrix absc ref.1; Dm ← derivativeMatrix absc ref.1;
  Ig ← interpolationMatrix absc1 ref.1; Dg ← derivativeMatrix absc1 ref.1;
  let fill buf := (buf ← x_gather buf; field_fill fields stride data nodes nops buf) in
  bk ← sumFactBack nb nq Im Dm oe dim (nops + nf) fill (bufs_of (junk 0%nat) (dim + 2) (buf_size nb nq (nops + nf) dim));
  geom ← sumFactBack 2 nq Ig Dg oe dim dim (fill_coords dim vertices) (bufs_of (junk 1%nat) (dim + 2) (buf_size 2 nq dim dim));
  fw ← for_each (evalAtQP dim nq nu us nr nf kernel time ref.2 bk geom) (qp_inds dim nq) (bufs_of (junk 2%nat) (dim + 1) (buf_size nb nq nops dim));
  temp ← rd bk 0;
  res ← sumFactForward nb nq Im Dm oe dim nops (fw ++ [temp]);
  rd res 0.

(** ** Direct evaluation: the quadrature points of EvaluateLocalOperator.hpp:220-226
    (computeFieldVals, computeFieldDers, evalKernel of AssembleLocalSystem.hpp:53-75,
    214-232; mapDomain, MapReferenceToPhysical.hpp:68-77).  [None]: the assertion fires. *)
Definition node_vals (fields : list nat) (stride : nat) (data : list R) (nodes : list nat) : res (list (list R)) :=
  map_res (fun node => map_res (fun f => rd data (node + f * stride)%nat) fields) nodes.
Definition processQP (t : etype) (nf : nat) (kernel : kernel_t) (time : R) (vertices nvals : list (list R)) (absc : list R) (pw : list R * R) : res (option (lupdate (F := R))) :=
  let n := native_dim t in
  let nn := n_basis_fun t absc in
  vals ← computeRefBasis t absc pw.1; rders ← computeRefBasisDers t absc pw.1;
  J ← jacobiMat t vertices pw.1;
  let phys := computePhysBasisDers n nn J rders in
  let jac := determinant n J in
  let fv := map (fun f => dot nn (fun b => ent nvals b f) (fun b => nth b vals 0)) (seq 0 nf) in
  let fd := mmul n nn nf phys nvals in
  p ← mapToPhysicalSpace t vertices pw.1;
  let '(ops, rhs) := kernel fv fd p time in
  Ok (if Rlt_dec 0 jac then Some {| u_ops := ops; u_rhs := rhs; u_vals := fun b => nth b vals 0; u_ders := fun d b => ent phys d b; u_w := jac * pw.2 |} else None).
Definition direct_points (t : etype) (kernel : kernel_t) (time : R) (absc : list R) (ref : list (list R) * list R) (vertices : list (list R)) (nodes fields : list nat) (stride : nat) (data : list R) : res (list (option (lupdate (F := R)))) :=
  nvals ← node_vals fields stride data nodes;
  q ← getQuadrature t ref;
  map_res (processQP t (length fields) kernel time vertices nvals absc) (zip q.1 q.2).
