(** What the functions of <cstring> are supposed to do (C 7.21), in terms of lists of character
    values. *)
From Coq Require Import List Arith ZArith.
Import ListNotations.
Open Scope Z_scope.

(** The values [xs] are stored from position [p] of the array [m] on. *)
Definition block (m : list Z) (p : nat) (xs : list Z) : Prop :=
  forall i x, nth_error xs i = Some x -> nth_error m (p + i) = Some x.

(** The null-terminated string [s] starts at position [p] of the array [m].  Nothing is said about
    what follows the terminator: the array may end there. *)
Definition cstr (m : list Z) (p : nat) (s : list Z) : Prop :=
  block m p s /\
  nth_error m (p + length s) = Some 0 /\ ~ In 0 s.

(** [s] is the string at position [p] of [m] cut off after [n] characters; there need be no
    terminator if it has [n] characters. *)
Definition cstr_n (m : list Z) (p n : nat) (s : list Z) : Prop :=
  block m p s /\
  (length s <= n)%nat /\ ((length s < n)%nat -> nth_error m (p + length s) = Some 0) /\ ~ In 0 s.

(** [r] is the first index of an element of [xs] with property [P], [None] if there is none *)
Definition first_of (P : Z -> Prop) (xs : list Z) (r : option nat) : Prop :=
  match r with
  | Some i => (exists x, nth_error xs i = Some x /\ P x) /\
              forall j x, (j < i)%nat -> nth_error xs j = Some x -> ~ P x
  | None => forall x, In x xs -> ~ P x
  end.

(** the same for the last index *)
Definition last_of (P : Z -> Prop) (xs : list Z) (r : option nat) : Prop :=
  match r with
  | Some i => (exists x, nth_error xs i = Some x /\ P x) /\
              forall j x, (i < j)%nat -> nth_error xs j = Some x -> ~ P x
  | None => forall x, In x xs -> ~ P x
  end.

(** [n] is the length of the longest prefix of [xs] whose elements have property [P] *)
Definition prefix_len (P : Z -> Prop) (xs : list Z) (n : nat) : Prop :=
  (n <= length xs)%nat /\ (forall x, In x (firstn n xs) -> P x) /\
  forall x, nth_error xs n = Some x -> ~ P x.

(** [t] occurs in [s] at index [i] *)
Definition occurs (s t : list Z) (i : nat) : Prop :=
  exists a b, s = a ++ t ++ b /\ length a = i.

(** the index of the first occurrence of [t] in [s] *)
Definition first_occurrence (s t : list Z) (r : option nat) : Prop :=
  match r with
  | Some i => occurs s t i /\ forall j, (j < i)%nat -> ~ occurs s t j
  | None => forall j, ~ occurs s t j
  end.

(** Lexicographic comparison of two lists *)
Fixpoint lexcmp (s t : list Z) : comparison :=
  match s, t with
  | [], [] => Eq
  | [], _ :: _ => Lt
  | _ :: _, [] => Gt
  | x :: s, y :: t => match x ?= y with Eq => lexcmp s t | c => c end
  end.

(** The int [r] reports the comparison [c]. *)
Definition reports (r : Z) (c : comparison) : Prop :=
  match c with Lt => r < 0 | Eq => r = 0 | Gt => 0 < r end.

(** [conversion to unsigned char] *)
Definition uchar (x : Z) : Z := x mod 256.
