(** Vocabulary of the statements about join and size_enumed. *)
From Coq Require Import List Arith Bool ZArith.
From Verif Require Import JoinModel.
Import ListNotations.

(** The containers one after the other, [sep] between any two. *)
Fixpoint joined {A} (sep : list A) (conts : list (list A)) : list A :=
  match conts with
  | [] => []
  | [c] => c
  | c :: cs => c ++ sep ++ joined sep cs
  end.

(** [l] filled up with [x] to [r] elements. *)
Definition filled {A} (x : A) (r : nat) (l : list A) : list A := l ++ repeat x (r - length l).

(** Every container holds at most / exactly [S] elements. *)
Definition fit {A} (S : nat) (conts : list (list A)) : Prop := forall c, In c conts -> length c <= S.
Definition full {A} (S : nat) (conts : list (list A)) : Prop := forall c, In c conts -> length c = S.

(** Every size followed by that of the separator; without the last separator. *)
Definition interleaved (sep : nat) (szs : list nat) (omit_last : bool) : list nat :=
  let l := concat (map (fun s => [s; sep]) szs) in if omit_last then removelast l else l.

(** The number of steps from the start of the enumeration. *)
Definition place (it : sit) : Z := (2 * current it + (if is_sep it then 1 else 0))%Z.

(** More nested calls than the computation needs. *)
Definition enough {A} (conts : list (list A)) (p d : nat) : Prop :=
  length (concat conts) + (p + 4) * length conts + 3 <= d.
