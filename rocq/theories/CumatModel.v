(** Model of the device matrix classes cumat and custride: products, scaling by a diagonal, inversion, views.
    Source: include/gwmodelpp/utils/cumat.hpp (cumat 175-324, custride 332-480, cubatched 482-583, cuop_trans 585-608,
    cuview 610-673, cuop_matmul 683-792, cuop_inv 794-813, cuop_diagmul 815-837), src/gwmodelpp/utils/cumat.cpp.
    Device memory of one object is a list; what cuBLAS does is taken from its documentation ([gemm], [dgmm], [matinv]).
    A read or write outside an allocation is undefined behaviour ([UB]); an error status that is thrown is [Throw].
    Simplified: the destination does not overlap the operands; sizes are natural numbers (no narrowing to int);
    allocation always succeeds. *)
From Coq Require Import Reals Bool List Arith.
From Verif Require Import Outcome CudaModel.
Import ListNotations.
Local Open Scope R_scope.

Definition mem := list R.

(** ** cuBLAS *)

(** Position of element (i, l) of op(A) in column-major storage with leading dimension [ld]. *)
Definition pos (trans : bool) (ld i l : nat) : nat := if trans then (l + i * ld)%nat else (i + l * ld)%nat.

Fixpoint osum (l : list (option R)) : option R :=
  match l with
  | [] => Some 0
  | a :: t => match a, osum t with Some x, Some s => Some (x + s) | _, _ => None end
  end.
Definition omul (a b : option R) : option R := match a, b with Some x, Some y => Some (x * y) | _, _ => None end.
Fixpoint oall (l : list (option R)) : option mem :=
  match l with
  | [] => Some []
  | a :: t => match a, oall t with Some x, Some s => Some (x :: s) | _, _ => None end
  end.

(** Entry (i, j) of the product; [None]: outside an allocation. *)
Definition gemm_entry (ta tb : bool) (k : nat) (A : mem) (oa lda : nat) (B : mem) (ob ldb : nat) (i j : nat) : option R :=
  osum (map (fun l => omul (nth_error A (oa + pos ta lda i l)) (nth_error B (ob + pos tb ldb l j))) (seq 0 k)).

(** Whether position [q] belongs to the m x n block at [oc] with leading dimension [ldc]. *)
Definition inside (oc ldc m n q : nat) : bool :=
  Nat.leb oc q && Nat.ltb ((q - oc) mod ldc) m && Nat.ltb ((q - oc) / ldc) n.

(** cublasDgemm with alpha 1 and beta 0; leading dimensions that are too small are an error. *)
Definition gemm (ta tb : bool) (m n k : nat) (A : mem) (oa lda : nat) (B : mem) (ob ldb : nat) (C : mem) (oc ldc : nat)
  : outcome mem :=
  if Nat.ltb lda (Nat.max 1 (if ta then k else m)) || Nat.ltb ldb (Nat.max 1 (if tb then n else k)) || Nat.ltb ldc (Nat.max 1 m)
  then Throw
  else if Nat.eqb m 0 || Nat.eqb n 0 then Ok C
  else if Nat.ltb (length C) (oc + (n - 1) * ldc + m) then UB
  else match oall (map (fun q => if inside oc ldc m n q
                                 then gemm_entry ta tb k A oa lda B ob ldb ((q - oc) mod ldc) ((q - oc) / ldc)
                                 else nth_error C q) (seq 0 (length C))) with
       | Some C' => Ok C'
       | None => UB
       end.

(** cublasDgemmStridedBatched: [batch] products, operands [sa], [sb], [sc] apart. *)
Fixpoint gemm_batch (batch : nat) (ta tb : bool) (m n k : nat) (A : mem) (oa lda sa : nat) (B : mem) (ob ldb sb : nat)
    (C : mem) (oc ldc sc : nat) : outcome mem :=
  match batch with
  | O => Ok C
  | S t => let* C' := gemm_batch t ta tb m n k A oa lda sa B ob ldb sb C oc ldc sc in
           gemm ta tb m n k A (oa + t * sa) lda B (ob + t * sb) ldb C' (oc + t * sc) ldc
  end.

(** cublasDdgmm with side right and unit increment: C = A diag(x).  [None]: an error status, nothing is done. *)
Definition dgmm (m n : nat) (A : mem) (oa lda : nat) (x : mem) (C : mem) (oc ldc : nat) : option (outcome mem) :=
  if Nat.ltb lda (Nat.max 1 m) || Nat.ltb ldc (Nat.max 1 m) then None
  else if Nat.eqb m 0 || Nat.eqb n 0 then Some (Ok C)
  else Some (if Nat.ltb (length C) (oc + (n - 1) * ldc + m) then UB
  else match oall (map (fun q => if inside oc ldc m n q
                                 then omul (nth_error A (oa + pos false lda ((q - oc) mod ldc) ((q - oc) / ldc)))
                                           (nth_error x ((q - oc) / ldc))
                                 else nth_error C q) (seq 0 (length C))) with
       | Some C' => Ok C'
       | None => UB
       end).

(** ** Operands *)

(** type of the traits: a matrix, or a number of matrices of the same shape behind each other. *)
Inductive kind := Mat | Strides (count : nat).

(** [o_rows], [o_cols]: the shape as stored; [o_trans]: wrapped by cuop_trans. *)
Record operand := mkOp { o_mem : mem; o_off : nat; o_rows : nat; o_cols : nat; o_trans : bool; o_kind : kind }.

Definition nrows (a : operand) : nat := if o_trans a then o_cols a else o_rows a.
Definition ncols (a : operand) : nat := if o_trans a then o_rows a else o_cols a.

(** cumat; custride; cumat::as_stride (every column a stride, sharing the memory); t(); custride::strides(start, end). *)
Definition cumat (rows cols : nat) (d : mem) : operand := mkOp d 0 rows cols false Mat.
Definition custride (rows cols n : nat) (d : mem) : operand := mkOp d 0 rows cols false (Strides n).
Definition as_stride (a : operand) : operand := mkOp (o_mem a) (o_off a) (o_rows a) 1 false (Strides (o_cols a)).
Definition t (a : operand) : operand := mkOp (o_mem a) (o_off a) (o_rows a) (o_cols a) (negb (o_trans a)) (o_kind a).
Definition view (a : operand) (start stop : nat) : operand :=
  mkOp (o_mem a) (o_off a + start * (o_rows a * o_cols a)) (o_rows a) (o_cols a) false (Strides (stop - start)).

(** getStrides (689-719), getStrideSize (695-699). *)
Definition getStrides (a : operand) : nat := match o_kind a with Mat => 1 | Strides n => n end.
Definition getStrideSize (a : operand) : nat := match o_kind a with Mat => 0 | Strides _ => (nrows a * ncols a)%nat end.

(** cuop_matmul::eval (727-747, 771-787): the memory of [c] afterwards. *)
Definition matmul (a b c : operand) : outcome mem :=
  let m := nrows a in let k := ncols a in let n := ncols b in
  let lda := if o_trans a then ncols a else nrows a in
  let ldb := if o_trans b then ncols b else nrows b in
  match o_kind a, o_kind b with
  | Mat, Mat => gemm (o_trans a) (o_trans b) m n k (o_mem a) (o_off a) lda (o_mem b) (o_off b) ldb (o_mem c) (o_off c) m
  | _, _ => gemm_batch (getStrides c) (o_trans a) (o_trans b) m n k (o_mem a) (o_off a) lda (getStrideSize a)
              (o_mem b) (o_off b) ldb (getStrideSize b) (o_mem c) (o_off c) m (getStrideSize c)
  end.
(** custride(cuop_matmul&&) and cumat(cuop_matmul&&) (839-843, 852-856): a new, zero initialised destination. *)
Definition matmul_strides (a b : operand) : nat :=
  match o_kind a with Strides n => n | Mat => match o_kind b with Strides n => n | Mat => 1%nat end end.
Definition matmul_new (a b : operand) : outcome operand :=
  let s := matmul_strides a b in
  let c := mkOp (repeat 0 (nrows a * ncols b * s)) 0 (nrows a) (ncols b) false
             (match o_kind a, o_kind b with Mat, Mat => Mat | _, _ => Strides s end) in
  let* d := matmul a b c in Ok (mkOp d 0 (nrows a) (ncols b) false (o_kind c)).

(** cuop_diagmul::eval (823-832): the status of cublasDdgmm is not looked at. *)
Definition diagmul (a x c : operand) : outcome mem :=
  match dgmm (nrows a) (ncols a) (o_mem a) (o_off a) (nrows a) (o_mem x) (o_mem c) (o_off c) (nrows c) with
  | None => Ok (o_mem c)
  | Some r => r
  end.

(** ** Inversion (cubatched 482-583, cuop_inv 794-813) *)

(** The pointers of a cubatched object: number, rows, columns, distance between the matrices. *)
Record batched := mkBatch { b_count : nat; b_rows : nat; b_cols : nat; b_bias : nat }.
(** 531-540: cubatched(double* d_mat, batch, rows, cols, bias). *)
Definition batched_of_memory (batch rows cols bias : nat) : batched := mkBatch batch rows cols bias.
(** 542-549: from a custride, from a cumat, from a cumat and a number. *)
Definition batched_of_stride (a : operand) : batched :=
  batched_of_memory (getStrides a) (nrows a) (ncols a) (getStrideSize a).
Definition batched_of_mat (a : operand) : batched := batched_of_memory (ncols a) (nrows a) (nrows a) 1.
Definition batched_of_mat_n (a : operand) (batch : nat) : batched := batched_of_memory batch 0 (nrows a) (ncols a).

(** cublasDmatinvBatched: [inv n v] is the inverse of the n x n matrix stored in [v], [None] when it is singular (info nonzero;
    the contents of the result are then not used).  Only n <= 32 is supported; otherwise an error status, which the
    code does not look at: neither the result nor [info] is written. *)
Section Inversion.
Variable inv : nat -> mem -> option mem.

Definition block (d : mem) (off size : nat) : option mem :=
  if Nat.leb (off + size) (length d) then Some (firstn size (skipn off d)) else None.
Definition put (d : mem) (off : nat) (v : mem) : mem := firstn off d ++ v ++ skipn (off + length v) d.

(** Matrices [count], [size] apart: new memory of the results and info ([true]: 0, inverted). *)
Fixpoint matinv (count n size : nat) (d r : mem) (info : list bool) : outcome (mem * list bool) :=
  match count with
  | O => Ok (r, info)
  | S s => let* p := matinv s n size d r info in
           match block d (s * size) (n * n), block (fst p) (s * size) (n * n) with
           | Some v, Some _ =>
               Ok (match inv n v with
                   | Some w => (put (fst p) (s * size) w, firstn s (snd p) ++ true :: skipn (S s) (snd p))
                   | None => (fst p, firstn s (snd p) ++ false :: skipn (S s) (snd p))
                   end)
           | _, _ => UB
           end
  end.
(** cuop_inv::eval on two custrides with memories [o_mem a], [o_mem c]. *)
Definition inverse (a c : operand) (info : list bool) : outcome (mem * list bool) :=
  let b := batched_of_stride a in
  if Nat.ltb 32 (nrows a) then Ok (o_mem c, info)
  else matinv (b_count b) (nrows a) (b_bias b) (o_mem a) (o_mem c) info.

(** ** One group of fitCoreCuda / predictCuda / fitCoreCVCuda (GWRBasic.cpp:618-643, 687-713, 740-767) *)

(** The weights of the locations of the group are written into the strides one after another (621-625). *)
Fixpoint weigh (xt : operand) (ws : list mem) (j : nat) (nvar ndp G : nat) (xtw : mem) : outcome mem :=
  match ws with
  | [] => Ok xtw
  | w :: rest =>
      let* d := diagmul xt (cumat ndp 1 w) (view (custride nvar ndp G xtw) j (S j)) in
      weigh xt rest (S j) nvar ndp G d
  end.

Record device := mkDev { d_xtw : mem; d_xtwx : mem; d_xtwy : mem; d_xtwxI : mem; d_info : list bool; d_betas : mem }.

(** The buffers as allocated (603-615): zero initialised; d_info is not initialised. *)
Definition cuda_start (nvar ndp G nout : nat) (info : list bool) : device :=
  mkDev (repeat 0 (G * (nvar * ndp))) (repeat 0 (G * (nvar * nvar))) (repeat 0 (G * nvar)) (repeat 0 (G * (nvar * nvar)))
    info (repeat 0 (nvar * nout)).

(** Sizes of the buffers. *)
Definition allocated (nvar ndp G nout : nat) (s : device) : Prop :=
  length (d_xtw s) = (G * (nvar * ndp))%nat /\ length (d_xtwx s) = (G * (nvar * nvar))%nat /\ length (d_xtwy s) = (G * nvar)%nat /\
  length (d_xtwxI s) = (G * (nvar * nvar))%nat /\ length (d_info s) = G /\ length (d_betas s) = (nvar * nout)%nat.

(** [ws]: the weight vectors of the locations [first], [first] + 1, ...; [nout]: columns of u_betas. *)
Definition cuda_group (nvar ndp G nout : nat) (xt y : mem) (ws : list mem) (first : nat) (s : device) : outcome device :=
  let u_xt := cumat nvar ndp xt in
  let* xtw := weigh u_xt ws 0 nvar ndp G (d_xtw s) in
  let u_xtw := custride nvar ndp G xtw in
  let* xtwx := matmul u_xtw (t u_xt) (custride nvar nvar G (d_xtwx s)) in
  let* xtwy := matmul u_xtw (cumat ndp 1 y) (custride nvar 1 G (d_xtwy s)) in
  let* p := inverse (custride nvar nvar G xtwx) (custride nvar nvar G (d_xtwxI s)) (d_info s) in
  if forallb (fun b => b) (firstn G (snd p)) then
    let* betas := matmul (custride nvar nvar G (fst p)) (custride nvar 1 G xtwy)
                    (view (as_stride (cumat nvar nout (d_betas s))) first (first + length ws)) in
    Ok (mkDev xtw xtwx xtwy (fst p) (snd p) betas)
  else Throw.

(** The loop over the groups of the range [lo, hi) (GWRBasic.cpp:600-602, 616-661), reduced to the coefficients: the first [g]
    groups.  [W e]: the weight vector of location [e] as computed on the device. *)
Fixpoint cuda_loop (W : nat -> mem) (lo hi nvar ndp G nout : nat) (xt y : mem) (g : nat) (s : device) : outcome device :=
  match g with
  | O => Ok s
  | S i => let* s' := cuda_loop W lo hi nvar ndp G nout xt y i s in
           cuda_group nvar ndp G nout xt y (map W (group lo hi G i)) (gbegin lo G i) s'
  end.
Definition cuda_fit (W : nat -> mem) (lo hi nvar ndp G nout : nat) (xt y : mem) (s : device) : outcome device :=
  let* g := groups (hi - lo) G in cuda_loop W lo hi nvar ndp G nout xt y g s.

(** The hat rows of the group, u_s with G strides (GWRBasic.cpp:645-647). *)
Definition cuda_hat (nvar ndp G : nat) (xt : mem) (first len : nat) (s : device) (u_c u_s : mem) : outcome (mem * mem) :=
  let* c := matmul (custride nvar nvar G (d_xtwxI s)) (custride nvar ndp G (d_xtw s)) (custride nvar ndp G u_c) in
  let* h := matmul (t (view (as_stride (cumat nvar ndp xt)) first (first + len))) (custride nvar ndp G c) (custride 1 ndp G u_s) in
  Ok (c, h).
(** The same in fitCoreSHatCuda, where both are new objects (GWRBasic.cpp:813-814). *)
Definition cuda_hat_new (nvar ndp G : nat) (xt : mem) (first len : nat) (s : device) : outcome (operand * operand) :=
  let* c := matmul_new (custride nvar nvar G (d_xtwxI s)) (custride nvar ndp G (d_xtw s)) in
  let* h := matmul_new (t (view (as_stride (cumat nvar ndp xt)) first (first + len))) c in
  Ok (c, h).
End Inversion.
