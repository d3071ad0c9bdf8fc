(** What sprout::basic_string is supposed to do, in terms of lists of characters. *)
From Coq Require Import List Arith ZArith.
From Verif Require Import Base BstrModel MutSpec StrSpec.
Import ListNotations.
Open Scope Z_scope.

(** the N + 1 elements of a string of capacity [N] with the contents [cs]: everything behind the
    contents is zero, so there is a terminator and the object is the same however it was made *)
Definition image (N : nat) (cs : list Z) : list Z := cs ++ repeat 0 (N + 1 - length cs).

(** The string of capacity [N] and length [len] at position [b] of [m] has the contents [cs]. *)
Definition holds (m : list Z) (b N len : nat) (cs : list Z) : Prop :=
  len = length cs /\ (len <= N)%nat /\ (b + N + 1 <= length m)%nat /\ block m b (image N cs).

(** The [len] characters at position [b] of [m] are [cs]. *)
Definition text (m : list Z) (b len : nat) (cs : list Z) : Prop := len = length cs /\ block m b cs.

(** the state in which the string has the contents [cs] and nothing else in memory has changed *)
Definition put (m : list Z) (b N : nat) (cs : list Z) : state := (paste m b (image N cs), length cs).

(** The call makes [cs] the contents; if [cs] is too long it throws length_error and changes nothing. *)
Definition becomes (m : list Z) (b N len : nat) (cs : list Z) : res outcome :=
  if (length cs <=? N)%nat then Ok (put m b N cs, None) else Ok (m, len, Some Length_error).

(** a new string with the contents [cs], or length_error *)
Definition built (N : nat) (cs : list Z) : res (option state) :=
  Ok (if (length cs <=? N)%nat then Some (image N cs, length cs) else None).

(** the positions [s, s + n) do not meet the string at [b] *)
Definition apart (b N s n : nat) : Prop := (s + n <= b \/ b + N + 1 <= s)%nat.
(** or are part of its contents *)
Definition inside (b len s n : nat) : Prop := (b <= s /\ s + n <= b + len)%nat.

(** the characters before the first null character *)
Fixpoint upto_nul (cs : list Z) : list Z :=
  match cs with [] => [] | x :: t => if x =? 0 then [] else x :: upto_nul t end.

(** the substring of at most [n] characters from [pos] on *)
Definition sub (cs : list Z) (pos n : nat) : list Z := firstn n (skipn pos cs).

(** [r] is the least position from [pos] on with property [Q]; [None] if there is none *)
Definition first_from (Q : nat -> Prop) (pos : nat) (r : option nat) : Prop :=
  match r with
  | Some i => (pos <= i)%nat /\ Q i /\ forall j, (pos <= j < i)%nat -> ~ Q j
  | None => forall j, (pos <= j)%nat -> ~ Q j
  end.
(** [r] is the greatest position up to [pos] with property [Q]; [None] if there is none *)
Definition last_upto (Q : nat -> Prop) (pos : nat) (r : option nat) : Prop :=
  match r with
  | Some i => (i <= pos)%nat /\ Q i /\ forall j, (i < j <= pos)%nat -> ~ Q j
  | None => forall j, (j <= pos)%nat -> ~ Q j
  end.
(** position [i] of [cs] holds a character with property [P] *)
Definition char_at (P : Z -> Prop) (cs : list Z) (i : nat) : Prop := exists x, nth_error cs i = Some x /\ P x.

(** null characters on one side only, and then no negative characters; or none at all *)
Definition comparable (s t : list Z) : Prop :=
  ~ In 0 s /\ ~ In 0 t \/ (~ In 0 s \/ ~ In 0 t) /\ Forall (fun x => 0 <= x) s /\ Forall (fun x => 0 <= x) t.
