(** sprout::random::seed_array for results of 32 bits. *)
From Coq Require Import List Arith Bool ZArith.
From Verif Require Import Base.
Import ListNotations.
Local Open Scope Z_scope.

(** Conversion to std::uint_least32_t *)
Definition w32 (z : Z) : Z := z mod 2 ^ 32.

(** sprout/random/seed_array.hpp 39-46: [x] is converted to std::uint_least64_t *)
Definition seed_array_init (x : Z) : Z := w32 ((x mod 2 ^ 64) mod Z.shiftl 2 32).
(** 58-62, 364-372: the array has as many elements as there are values *)
Definition make_seed_array (l : list Z) : list Z := map seed_array_init l.

(** 81-83 *)
Definition tp (x : Z) : Z := Z.lxor x (Z.shiftr x 27).
(** 84-91 *)
Definition tval (n : nat) : nat :=
  if (623 <=? n)%nat then 11 else if (68 <=? n)%nat then 7 else if (39 <=? n)%nat then 5 else if (7 <=? n)%nat then 3 else ((n - 1) / 2)%nat.

(** ** The version without side effects *)
(** 92-111 *)
Definition set2_impl (result : list Z) (kpn kqn kn : nat) (r3 r4 : Z) : list Z :=
  map (fun i => if (i =? kn)%nat then r4
                else Z.lxor (Z.lxor (nth i result 0) (if (i =? kpn)%nat then r3 else 0)) (if (i =? kqn)%nat then r4 else 0))
      (seq 0 (length result)).
(** 112-121 *)
Definition set2 (result : list Z) (kpn kqn kn : nat) (r3 r4_3 : Z) : list Z :=
  set2_impl result kpn kqn kn r3 (w32 (r3 - r4_3)).
(** 122-141 *)
Definition set1_impl (result : list Z) (kpn kqn kn : nat) (r1 r2 : Z) : list Z :=
  map (fun i => if (i =? kn)%nat then r2
                else w32 (nth i result 0 + (if (i =? kpn)%nat then r1 else 0) + (if (i =? kqn)%nat then r2 else 0)))
      (seq 0 (length result)).
(** 142-151 *)
Definition set1 (result : list Z) (kpn kqn kn : nat) (r1 r2_1 : Z) : list Z :=
  set1_impl result kpn kqn kn r1 (w32 (r1 + r2_1)).

Section Gen.
  (** The seeds *)
  Variable v : list Z.
  Variables (n s m p q : nat).

  (** 152-170; [d] is the depth of recursion, here and below *)
  Fixpoint gen2 (d : nat) (result : list Z) (k : nat) : res (list Z) :=
    match d with
    | O => Fuel
    | S d =>
        if (k <? m + n)%nat then
          a <- rd result (k mod n) ;; b <- rd result ((k + p) mod n) ;; c <- rd result ((k + n - 1) mod n) ;;
          gen2 d (set2 result ((k + p) mod n) ((k + q) mod n) (k mod n) (w32 (1566083941 * tp (w32 (a + b + c)))) (w32 (Z.of_nat (k mod n)))) (k + 1)
        else Ok result
    end.
  (** 171-189 *)
  Fixpoint gen1_2 (d : nat) (result : list Z) (k : nat) : res (list Z) :=
    match d with
    | O => Fuel
    | S d =>
        if (k <? m)%nat then
          a <- rd result (k mod n) ;; b <- rd result ((k + p) mod n) ;; c <- rd result ((k - 1) mod n) ;;
          gen1_2 d (set1 result ((k + p) mod n) ((k + q) mod n) (k mod n) (w32 (1664525 * tp (Z.lxor (Z.lxor a b) c))) (w32 (Z.of_nat (k mod n)))) (k + 1)
        else Ok result
    end.
  (** 190-208 *)
  Fixpoint gen1_1 (d : nat) (result : list Z) (k : nat) : res (list Z) :=
    match d with
    | O => Fuel
    | S d =>
        if (k <=? s)%nat then
          a <- rd result (k mod n) ;; b <- rd result ((k + p) mod n) ;; c <- rd result ((k - 1) mod n) ;; x <- rd v (k - 1) ;;
          gen1_1 d (set1 result ((k + p) mod n) ((k + q) mod n) (k mod n) (w32 (1664525 * tp (Z.lxor (Z.lxor a b) c))) (w32 (Z.of_nat (k mod n) + x))) (k + 1)
        else Ok result
    end.
  (** 209-220 *)
  Definition gen1_0 (result : list Z) : res (list Z) :=
    a <- rd result 0 ;; b <- rd result p ;; c <- rd result (n - 1) ;;
    Ok (set1 result p q 0 (w32 (1664525 * tp (Z.lxor (Z.lxor a b) c))) (w32 (Z.of_nat s))).
  (** 221-243 *)
  Definition gen_impl (d : nat) (result : list Z) : res (list Z) :=
    r0 <- gen1_0 result ;; r1 <- gen1_1 d r0 1 ;; r2 <- gen1_2 d r1 (s + 1) ;; gen2 d r2 m.

  (** ** The version with side effects, 269-306 *)
  (** 282-297: the first loop; [d] is the number of turns *)
  Fixpoint loop_1 (d : nat) (b : list Z) (k : nat) : res (list Z) :=
    match d with
    | O => Fuel
    | S d =>
        if (k <? m)%nat then
          let kn := (k mod n)%nat in let kpn := ((k + p) mod n)%nat in let kqn := ((k + q) mod n)%nat in let k1n := ((k + n - 1) mod n)%nat in
          x <- rd b kn ;; y <- rd b kpn ;; z <- rd b k1n ;;
          let r1 := w32 (1664525 * tp (Z.lxor (Z.lxor x y) z)) in
          t <- (if (k =? 0)%nat then Ok (Z.of_nat s) else if (k <=? s)%nat then (u <- rd v (k - 1) ;; Ok (Z.of_nat kn + u)) else Ok (Z.of_nat kn)) ;;
          let r2 := w32 (r1 + t) in
          y <- rd b kpn ;; b <- wr b kpn (w32 (y + r1)) ;;
          y <- rd b kqn ;; b <- wr b kqn (w32 (y + r2)) ;;
          b <- wr b kn r2 ;;
          loop_1 d b (k + 1)
        else Ok b
    end.
  (** 298-308 *)
  Fixpoint loop_2 (d : nat) (b : list Z) (k : nat) : res (list Z) :=
    match d with
    | O => Fuel
    | S d =>
        if (k <? m + n)%nat then
          let kn := (k mod n)%nat in let kpn := ((k + p) mod n)%nat in let kqn := ((k + q) mod n)%nat in let k1n := ((k + n - 1) mod n)%nat in
          x <- rd b kn ;; y <- rd b kpn ;; z <- rd b k1n ;;
          let r3 := w32 (1566083941 * tp (w32 (x + y + z))) in
          let r4 := w32 (r3 - Z.of_nat kn) in
          y <- rd b kpn ;; b <- wr b kpn (Z.lxor y r3) ;;
          y <- rd b kqn ;; b <- wr b kqn (Z.lxor y r4) ;;
          b <- wr b kn r4 ;;
          loop_2 d b (k + 1)
        else Ok b
    end.
End Gen.

(** 310-322 with 244-256: into an array [result] of [n] elements; the temporary array holds 0x8b8b8b8b *)
Definition generate (d : nat) (v result : list Z) : res (list Z) :=
  let n := length result in
  if (n =? 0)%nat then Ok result
  else
    let t := tval n in let p := ((n - t) / 2)%nat in
    gen_impl v n (length v) (Nat.max (length v + 1) n) p (p + t) d (repeat 2341178251 n).
(** 270-281 *)
Definition generate_range (d : nat) (v b : list Z) : res (list Z) :=
  let n := length b in
  if (n =? 0)%nat then Ok b
  else
    let s := length v in let m := Nat.max (s + 1) n in
    let t := tval n in let p := ((n - t) / 2)%nat in
    b <- loop_1 v n s m p (p + t) d (repeat 2341178251 n) 0 ;;
    loop_2 n m p (p + t) d b m.
