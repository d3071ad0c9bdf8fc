(** The sum and the exclusive or of a sequence of bytes. *)
From Coq Require Import List ZArith.
Import ListNotations.
Open Scope Z_scope.

Definition total (l : list Z) : Z := fold_right Z.add 0 l.
(** bit [i] of the exclusive or is set iff an odd number of elements have it set *)
Definition odd_bit (l : list Z) (i : Z) : bool := Nat.odd (length (filter (fun x => Z.testbit x i) l)).
