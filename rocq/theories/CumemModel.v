(** Model of who owns the device memory of cumat and custride objects.
    Source: include/gwmodelpp/utils/cumat.hpp:101-126 (cubase), 187-287 (cumat), 354-406 (custride), src/gwmodelpp/utils/cumat.cpp:60-73.
    The heap is the list of all allocations ever made, [None] once freed; a cell is [None] when it has not been initialised.
    Objects are numbered in the order of construction, [None] once destroyed.  Freeing memory that is not live, reading or
    writing outside live memory, and using a destroyed object are undefined behaviour (CUDA itself reports an error, which
    the code ignores, unless the address has been handed out again).  Simplified: a custride that shares the memory of a
    cumat (403-406) is represented with the shape of the cumat; allocation always succeeds. *)
From Coq Require Import Reals Bool List Arith.
From Verif Require Import Outcome.
Import ListNotations.
Local Open Scope R_scope.

Definition cells := list (option R).
Record obj := mkObj { m_rows : nat; m_cols : nat; m_ptr : option nat; m_own : bool }.
Record state := mkSt { heap : list (option cells); objs : list (option obj) }.
Definition empty : state := mkSt [] [].

Fixpoint upd {A : Type} (l : list A) (i : nat) (x : A) : list A :=
  match l, i with
  | [], _ => []
  | _ :: t, O => x :: t
  | a :: t, S j => a :: upd t j x
  end.

Definition size (o : obj) : nat := (m_rows o * m_cols o)%nat.
Definition live (h : list (option cells)) (p : option nat) : option cells :=
  match p with Some a => match nth_error h a with Some (Some v) => Some v | _ => None end | None => None end.
Definition get (s : state) (i : nat) : outcome obj :=
  match nth_error (objs s) i with Some (Some o) => Ok o | _ => UB end.

(** cudaFree: a null pointer is allowed. *)
Definition cfree (h : list (option cells)) (p : option nat) : outcome (list (option cells)) :=
  match p with
  | None => Ok h
  | Some a => match live h p with Some _ => Ok (upd h a None) | None => UB end
  end.
(** cudaMemcpy of n doubles to the start of [dst] from the start of [src]. *)
Definition ccopy (h : list (option cells)) (dst src : option nat) (n : nat) : outcome (list (option cells)) :=
  if Nat.eqb n 0 then Ok h
  else match dst, live h dst, live h src with
       | Some a, Some d, Some v =>
           if Nat.leb n (length d) && Nat.leb n (length v) then Ok (upd h a (Some (firstn n v ++ skipn n d))) else UB
       | _, _, _ => UB
       end.

Inductive op :=
| Default                                   (* 187 *)
| Zero (r c : nat)                          (* 196-201, 101-113 *)
| Fill (r c : nat) (v : list R)             (* 208-211: [v] has r * c elements *)
| CopyC (j : nat)                           (* 218-221, 380-383 *)
| MoveC (j : nat)                           (* 231-236, 390-395 *)
| ViewC (j : nat)                           (* 403-406 *)
| Assign (i j : nat)                        (* 263-277 *)
| MoveAssign (i j : nat)                    (* 279-287 *)
| TransAssign (i j : nat)                   (* cumat.cpp:60-73 *)
| Destroy (i : nat).                        (* 119-126 *)

(** Column-major transpose of an r x c matrix. *)
Definition transposed (r c : nat) (v : cells) : cells :=
  map (fun q => nth (q / c + (q mod c) * r) v None) (seq 0 (c * r)).

Definition step (s : state) (o : op) : outcome state :=
  match o with
  | Default => Ok (mkSt (heap s) (objs s ++ [Some (mkObj 0 0 None false)]))
  | Zero r c => Ok (mkSt (heap s ++ [Some (repeat (Some 0) (r * c))]) (objs s ++ [Some (mkObj r c (Some (length (heap s))) true)]))
  | Fill r c v =>
      if Nat.eqb (length v) (r * c)
      then Ok (mkSt (heap s ++ [Some (map Some v)]) (objs s ++ [Some (mkObj r c (Some (length (heap s))) true)]))
      else UB
  | CopyC j =>
      let* src := get s j in
      let p := Some (length (heap s)) in
      let* h := ccopy (heap s ++ [Some (repeat (Some 0) (size src))]) p (m_ptr src) (size src) in
      Ok (mkSt h (objs s ++ [Some (mkObj (m_rows src) (m_cols src) p true)]))
  | MoveC j =>
      let* src := get s j in
      Ok (mkSt (heap s) (upd (objs s) j (Some (mkObj (m_rows src) (m_cols src) (m_ptr src) false))
                          ++ [Some (mkObj (m_rows src) (m_cols src) (m_ptr src) true)]))
  | ViewC j =>
      let* src := get s j in
      Ok (mkSt (heap s) (objs s ++ [Some (mkObj (m_rows src) (m_cols src) (m_ptr src) false)]))
  | Assign i j =>
      let* l := get s i in
      let* r := get s j in
      let* h := (if m_own l then cfree (heap s) (m_ptr l) else Ok (heap s)) in
      let p := Some (length h) in
      let h' := h ++ [Some (repeat None (size r))] in
      let l' := mkObj (m_rows l) (m_cols l) p (m_own l) in
      let* h'' := ccopy h' p (if Nat.eqb i j then p else m_ptr r) (size l') in
      Ok (mkSt h'' (upd (objs s) i (Some l')))
  | MoveAssign i j =>
      let* _ := get s i in
      let* r := get s j in
      let os := upd (objs s) i (Some (mkObj (m_rows r) (m_cols r) (m_ptr r) true)) in
      Ok (mkSt (heap s) (upd os j (Some (mkObj (m_rows r) (m_cols r) (m_ptr r) false))))
  | TransAssign i j =>
      let* l := get s i in
      let* r := get s j in
      let rows := m_cols r in
      let cols := if Nat.eqb i j then rows else m_rows r in
      let* h := cfree (heap s) (m_ptr l) in
      let p := Some (length h) in
      let src := if Nat.eqb i j then p else m_ptr r in
      let h' := h ++ [Some (repeat None (rows * cols))] in
      (* cublasDgeam refuses a leading dimension of zero *)
      if Nat.eqb cols 0 then Throw
      else match live h' src with
           | Some v => if Nat.eqb rows 0 || Nat.leb (rows * cols) (length v)
                       then Ok (mkSt (upd h' (length h) (Some (transposed cols rows v)))
                                  (upd (objs s) i (Some (mkObj rows cols p (m_own l)))))
                       else UB
           | None => if Nat.eqb rows 0 then Ok (mkSt h' (upd (objs s) i (Some (mkObj rows cols p (m_own l))))) else UB
           end
  | Destroy i =>
      let* o := get s i in
      let* h := (if m_own o then cfree (heap s) (m_ptr o) else Ok (heap s)) in
      Ok (mkSt h (upd (objs s) i None))
  end.

Fixpoint run (s : state) (l : list op) : outcome state :=
  match l with
  | [] => Ok s
  | o :: t => let* s' := step s o in run s' t
  end.
