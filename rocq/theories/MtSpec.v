(** The Mersenne twister as the C++ standard defines it (26.5.3.2), in arithmetic terms.
    The state is the list of the last n words, the oldest first. *)
From Coq Require Import List Arith ZArith Bool.
From Verif Require Import Base BitModel MtModel.
Import ListNotations.
Open Scope Z_scope.

(** the parameters are as the standard requires, with strict bounds on the shifts, 1 <= r and m < n *)
Definition mt_valid (P : mtp) : Prop :=
  sgn (mt P) = false /\ (lg (mt P) <= 3)%nat /\ 2 <= mw P <= wid (mt P) /\
  (1 <= mm P < mn P)%nat /\ 1 <= mr P < mw P /\
  0 <= mu P < wid (mt P) /\ 0 <= ms P < wid (mt P) /\ 0 <= mtt P < wid (mt P) /\ 0 <= ml P < wid (mt P) /\
  0 <= ma P < 2 ^ mw P /\ 0 <= md_ P < 2 ^ mw P /\ 0 <= mb P < 2 ^ mw P /\ 0 <= mc P < 2 ^ mw P /\
  0 <= mf P < 2 ^ mw P.

Section Std.
  Variable P : mtp.

  (** the upper w - r bits of [x0] and the lower r bits of [x1] *)
  Definition glue (x0 x1 : Z) : Z := 2 ^ mr P * (x0 / 2 ^ mr P) + x1 mod 2 ^ mr P.
  (** multiplication by the matrix A *)
  Definition times_a (y : Z) : Z := if Z.odd y then Z.lxor (y / 2) (ma P) else y / 2.
  Definition mt_next (win : list Z) : Z :=
    Z.lxor (nth (mm P) win 0) (times_a (glue (nth 0 win 0) (nth 1 win 0))).
  Definition mt_adv (win : list Z) : list Z := tl win ++ [mt_next win].
  Definition temper (z : Z) : Z :=
    let z := Z.lxor z (Z.land (z / 2 ^ mu P) (md_ P)) in
    let z := Z.lxor z (Z.land ((z * 2 ^ ms P) mod 2 ^ mw P) (mb P)) in
    let z := Z.lxor z (Z.land ((z * 2 ^ mtt P) mod 2 ^ mw P) (mc P)) in
    Z.lxor z (z / 2 ^ ml P).
  Fixpoint mt_outputs (k : nat) (win : list Z) : list Z :=
    match k with
    | O => []
    | S k => temper (mt_next win) :: mt_outputs k (mt_adv win)
    end.
  (** the words a seed is expanded to: x_0 is the seed, and x_i depends on x_{i-1} and i *)
  Fixpoint seed_words (k : nat) (i : Z) (x : Z) : list Z :=
    match k with
    | O => [x]
    | S k => x :: seed_words k (i + 1) ((mf P * Z.lxor x (x / 2 ^ (mw P - 2)) + i) mod 2 ^ mw P)
    end.
  Definition mt_window (seed : Z) : list Z := seed_words (mn P - 1) 1 (seed mod 2 ^ mw P).

  Fixpoint advance (k : nat) (win : list Z) : list Z :=
    match k with
    | O => win
    | S k => advance k (mt_adv win)
    end.
  (** the engine [e] holds the window [win] of words; [bad] engines do not exist: an engine is
      either freshly seeded with n words, or has made [i] steps since its last twist *)
  Definition holds (e : list Z * nat) (win : list Z) : Prop :=
    exists old, length old = mn P /\ Forall (fun x => 0 <= x < 2 ^ mw P) old /\
      ((e = (old, mn P) /\ win = old) \/
       ((1 <= snd e <= mn P)%nat /\ fst e = advance (mn P) old /\ win = advance (snd e) old)).
End Std.
