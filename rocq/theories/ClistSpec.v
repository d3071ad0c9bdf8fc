(** What the lists of a program should be: each list is the sequence of the addresses of its
    items, behind that of its own first member; all are disjoint. *)
From Coq Require Import List Arith Bool.
From Verif Require Import Base ClistModel.
Import ListNotations.

(** The items of ys are linked in this order and the last is linked to nothing. *)
Fixpoint linked {V} (h : heap V) (ys : list loc) : Prop :=
  match ys with
  | [] => True
  | y :: t => next (h y) = hd_error t /\ linked h t
  end.

(** The heap holds exactly the lists W: every list is linked, no item is in two places, and items
    in no list are linked to nothing. *)
Definition holds {V} (h : heap V) (W : list (list loc)) : Prop :=
  Forall (linked h) W /\ NoDup (concat W) /\ Forall (fun ys => ys <> []) W
  /\ forall p, ~ In p (concat W) -> next (h p) = None.

(** Sequences: x inserted behind p; the item behind p erased; the items behind p up to q erased;
    x removed. *)
Fixpoint ins (p x : loc) (ys : list loc) : list loc :=
  match ys with
  | [] => []
  | y :: t => if y =? p then y :: x :: t else y :: ins p x t
  end.

Fixpoint era (p : loc) (ys : list loc) : list loc :=
  match ys with
  | [] => []
  | y :: t => if y =? p then y :: tl t else y :: era p t
  end.

Fixpoint from (q : ptr) (ys : list loc) : list loc :=
  match ys with
  | [] => []
  | y :: t => if it_eq (Some y) q then ys else from q t
  end.

Fixpoint era_to (p : loc) (q : ptr) (ys : list loc) : list loc :=
  match ys with
  | [] => []
  | y :: t => if y =? p then y :: from q t else y :: era_to p q t
  end.

Fixpoint rem (x : loc) (ys : list loc) : list loc :=
  match ys with
  | [] => []
  | y :: t => if y =? x then t else y :: rem x t
  end.

(** q is an item of ys behind p, or null, the end. *)
Definition behind (p : loc) (q : ptr) (ys : list loc) : Prop :=
  exists a b, ys = a ++ p :: b /\ match q with Some q => In q b | None => True end.

(** The call is allowed when the lists are [ys] and others, all items being in [all]; and the
    sequence that [ys] becomes. *)
Definition allowed (c : call) (ys all : list loc) : Prop :=
  match c with
  | PushFront l x => hd_error ys = Some l /\ ~ In x all
  | PopFront l => hd_error ys = Some l /\ tl ys <> []
  | InsertAfter l p x => hd_error ys = Some l /\ In p ys /\ ~ In x all
  | EraseAfter l p => hd_error ys = Some l /\ exists a q b, ys = a ++ p :: q :: b
  | EraseRange l p q => hd_error ys = Some l /\ behind p q ys
  | Clear l => hd_error ys = Some l
  | Unlink l x => hd_error ys = Some l /\ x <> l
  end.

Definition effect (c : call) (ys : list loc) : list loc :=
  match c with
  | PushFront l x => ins l x ys
  | PopFront l => era l ys
  | InsertAfter l p x => ins p x ys
  | EraseAfter l p => era p ys
  | EraseRange l p q => era_to p q ys
  | Clear l => [l]
  | Unlink l x => rem x ys
  end.

(** A run of allowed calls from the lists W to the lists W'. *)
Inductive becomes : list (list loc) -> list call -> list (list loc) -> Prop :=
| becomes_nil W : becomes W [] W
| becomes_cons A ys B c cs W : allowed c ys (concat (A ++ ys :: B)) ->
    becomes (A ++ effect c ys :: B) cs W -> becomes (A ++ ys :: B) (c :: cs) W.
