(** Model of SpatialWeight objects and the Weight / Distance objects they own
    (include/gwmodelpp/spatialweight/SpatialWeight.h,
    src/gwmodelpp/spatialweight/SpatialWeight.cpp).

    One heap holds all Weight and Distance objects ("components"); an address is
    never reused.  Simplifications: both kinds of components share one content
    type [A]; C++ typing (a Weight pointer is not a Distance pointer) is not
    enforced, so more programs are covered than C++ accepts.  [delete] on a live
    address frees it; reading or deleting a freed address is undefined behaviour. *)
From Coq Require Import Bool List Arith.
Import ListNotations.

Section SpatialWeight.
Variable A : Type.
(** The virtual clone(): [None] when it throws (CRSSTDistance.cpp:78-90 does for
    lambda outside [0,1]). *)
Variable cln : A -> option A.

(** SpatialWeight.h:441-442 mWeight and mDistance, null by default. *)
Record sw : Type := mkSw { sw_w : option nat; sw_d : option nat }.
(** [true] selects mWeight, [false] mDistance. *)
Definition slot (k : bool) (s : sw) : option nat := if k then sw_w s else sw_d s.
Definition set_slot (k : bool) (s : sw) (p : option nat) : sw :=
  if k then mkSw p (sw_d s) else mkSw (sw_w s) p.

Record state : Type := mkState {
  heap : nat -> option A;       (* live components *)
  nexta : nat;                  (* next fresh address *)
  objs : nat -> option sw;      (* live SpatialWeight objects *)
  nexto : nat;
  caller : nat -> bool          (* components created by the caller *)
}.
Definition init : state := mkState (fun _ => None) 0 (fun _ => None) 0 (fun _ => false).

Definition upd {B} (f : nat -> B) (i : nat) (b : B) : nat -> B :=
  fun j => if Nat.eqb j i then b else f j.

Inductive res : Type := SOk (s : state) | SThrow (s : state) | SUB.
Definition rbind (r : res) (f : state -> res) : res :=
  match r with SOk s => f s | SThrow s => SThrow s | SUB => SUB end.

Definition set_heap (st : state) (h : nat -> option A) : state :=
  mkState h (nexta st) (objs st) (nexto st) (caller st).
Definition set_obj (st : state) (o : nat) (s : option sw) : state :=
  mkState (heap st) (nexta st) (upd (objs st) o s) (nexto st) (caller st).

(** [if (p) delete p;] *)
Definition del (p : option nat) (st : state) : res :=
  match p with
  | None => SOk st
  | Some a => match heap st a with
              | Some _ => SOk (set_heap st (upd (heap st) a None))
              | None => SUB
              end
  end.

(** [member = p->clone();] for member [k] of object [o]: dereferencing null or a
    freed address is undefined; a throwing clone leaves the member as it was. *)
Definition clone_into (o : nat) (k : bool) (p : option nat) (st : state) : res :=
  match p with
  | None => SUB
  | Some a =>
      match heap st a, objs st o with
      | Some c, Some s =>
          match cln c with
          | Some c' => SOk (mkState (upd (heap st) (nexta st) (Some c')) (S (nexta st))
                         (upd (objs st) o (Some (set_slot k s (Some (nexta st))))) (nexto st) (caller st))
          | None => SThrow st
          end
      | _, _ => SUB
      end
  end.

Definition new_obj (st : state) (s : sw) : state :=
  mkState (heap st) (nexta st) (upd (objs st) (nexto st) (Some s)) (S (nexto st)) (caller st).
(** A constructor that throws: the object never existed, no destructor runs. *)
Definition ctor (o : nat) (r : res) : res :=
  match r with SThrow s => SThrow (set_obj s o None) | _ => r end.

Inductive op : Type :=
| CallerNew (a : A)                       (* new BandwidthWeight(...) etc. in the caller *)
| CallerDelete (p : nat)
| NewDefault
| NewFrom (pw pd : option nat)            (* SpatialWeight(weight, distance), by pointer or reference *)
| CopyCtor (o : nat)
| MoveCtor (o : nat)
| CopyAssign (dst src : nat)
| MoveAssign (dst src : nat)
| SetPtr (o : nat) (k : bool) (p : option nat)   (* setWeight(Weight* ) / setDistance(Distance* ) *)
| SetRef (o : nat) (k : bool) (p : nat)          (* the & and && overloads *)
| Destroy (o : nat)
| Mutate (o : nat) (k : bool) (f : A -> A)       (* e.g. weight<BandwidthWeight>()->setBandwidth(b) *)
| Use (o : nat).                                 (* weightVector *)

(** A pointer argument denotes an address that has been handed out before the call. *)
Definition known (st : state) (p : option nat) : bool :=
  match p with Some a => Nat.ltb a (nexta st) | None => true end.

Definition step (st : state) (x : op) : res :=
  match x with
  | CallerNew a =>
      SOk (mkState (upd (heap st) (nexta st) (Some a)) (S (nexta st)) (objs st) (nexto st)
             (upd (caller st) (nexta st) true))
  (* deleting something the caller did not create counts as misuse *)
  | CallerDelete p =>
      if caller st p then
        SOk (mkState (upd (heap st) p None) (nexta st) (objs st) (nexto st) (upd (caller st) p false))
      else SUB
  (* SpatialWeight.h:57 *)
  | NewDefault => SOk (new_obj st (mkSw None None))
  (* SpatialWeight.h:73-77, 91-95 *)
  | NewFrom pw pd =>
      let o := nexto st in
      if known st pd then
        ctor o (rbind (clone_into o true pw (new_obj st (mkSw None None))) (clone_into o false pd))
      else SUB
  (* SpatialWeight.h:107-111 *)
  | CopyCtor q =>
      let o := nexto st in
      match objs st q with
      | Some s =>
          ctor o (rbind (clone_into o true (sw_w s) (new_obj st (mkSw None None)))
                        (clone_into o false (sw_d s)))
      | None => SUB
      end
  (* SpatialWeight.h:123-130 *)
  | MoveCtor q =>
      match objs st q with
      | Some s => SOk (new_obj (set_obj st q (Some (mkSw None None))) s)
      | None => SUB
      end
  (* SpatialWeight.cpp:26-34 *)
  | CopyAssign dst src =>
      match objs st dst, objs st src with
      | Some sd, Some ss =>
          if Nat.eqb dst src then SOk st
          else rbind (del (sw_w sd) st) (fun st1 =>
               rbind (del (sw_d sd) st1) (fun st2 =>
               rbind (clone_into dst true (sw_w ss) st2) (clone_into dst false (sw_d ss))))
      | _, _ => SUB
      end
  (* SpatialWeight.cpp:14-24 *)
  | MoveAssign dst src =>
      match objs st dst, objs st src with
      | Some sd, Some ss =>
          if Nat.eqb dst src then SOk st
          else rbind (del (sw_w sd) st) (fun st1 =>
               rbind (del (sw_d sd) st1) (fun st2 =>
               SOk (set_obj (set_obj st2 dst (Some ss)) src (Some (mkSw None None)))))
      | _, _ => SUB
      end
  (* SpatialWeight.h:170-177, 262-269 *)
  | SetPtr o k p =>
      match objs st o with
      | Some s =>
          match p with
          | None => SOk st
          | Some a =>
              if match slot k s with Some b => Nat.eqb a b | None => false end then SOk st
              else rbind (del (slot k s) st) (clone_into o k p)
          end
      | None => SUB
      end
  (* SpatialWeight.h:192-196, 211-215, 284-288, 303-307 *)
  | SetRef o k p =>
      match objs st o with
      | Some s => rbind (del (slot k s) st) (clone_into o k (Some p))
      | None => SUB
      end
  (* SpatialWeight.cpp:6-12 *)
  | Destroy o =>
      match objs st o with
      | Some s =>
          rbind (del (sw_w s) st) (fun st1 =>
          rbind (del (sw_d s) st1) (fun st2 => SOk (set_obj st2 o None)))
      | None => SUB
      end
  | Mutate o k f =>
      match objs st o with
      | Some s => match slot k s with
                  | Some p => match heap st p with
                              | Some a => SOk (set_heap st (upd (heap st) p (Some (f a))))
                              | None => SUB
                              end
                  | None => SUB
                  end
      | None => SUB
      end
  (* SpatialWeight.h:380-383 *)
  | Use o =>
      match objs st o with
      | Some s => match sw_w s, sw_d s with
                  | Some p, Some q => match heap st p, heap st q with
                                      | Some _, Some _ => SOk st
                                      | _, _ => SUB
                                      end
                  | _, _ => SUB
                  end
      | None => SUB
      end
  end.

(** A history; stops at the first exception or undefined behaviour. *)
Fixpoint run (st : state) (l : list op) : res :=
  match l with
  | [] => SOk st
  | x :: l' => rbind (step st x) (fun s => run s l')
  end.

(** What member [k] of object [o] holds. *)
Definition content (st : state) (o : nat) (k : bool) : option A :=
  match objs st o with
  | Some s => match slot k s with Some p => heap st p | None => None end
  | None => None
  end.

End SpatialWeight.
Arguments heap {A}. Arguments nexta {A}. Arguments objs {A}. Arguments nexto {A}. Arguments caller {A}.
Arguments SOk {A}. Arguments SThrow {A}. Arguments SUB {A}.
Arguments CallerNew {A}. Arguments CallerDelete {A}. Arguments NewDefault {A}. Arguments NewFrom {A}.
Arguments CopyCtor {A}. Arguments MoveCtor {A}. Arguments CopyAssign {A}. Arguments MoveAssign {A}.
Arguments SetPtr {A}. Arguments SetRef {A}. Arguments Destroy {A}. Arguments Mutate {A}. Arguments Use {A}.
Arguments content {A}. Arguments init {A}.
