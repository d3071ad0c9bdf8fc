(** Specification vocabulary of the algorithms that return a window. *)
From Coq Require Import List Arith Bool.
From Verif Require Import SearchSpec MutSpec FixModel FixSpec.
Import ListNotations.

(** [r] is a window over the internal array of [c], in which [stored] was written to the front of
    the container; it starts where the container starts and its elements are those of [shown],
    as many as fit in the container. *)
Definition fitted {A} (c : cont A) (stored shown : list A) (r : cont A) : Prop :=
  wf r /\ cbase r = cbase (with_front c stored) /\ coff r = coff c /\ elems r = firstn (csize c) shown.

(** The same for [stored] written to the back of the container: the window ends where the container
    ends and has the last elements of [stored], as many as fit. *)
Definition fitted_back {A} (c : cont A) (stored : list A) (r : cont A) : Prop :=
  wf r /\ cbase r = cbase (with_back c stored) /\ coff r + csize r = coff c + csize c /\
  elems r = skipn (length stored - csize c) stored.

(** A relation that groups elements, as == does. *)
Definition groups {A} (pred : A -> A -> bool) : Prop :=
  (forall x y, pred x y = true -> pred y x = true) /\
  (forall x y z, pred x y = true -> pred y z = true -> pred x z = true).
