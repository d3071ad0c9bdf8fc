(** Models of further algorithms: interruptible folds, monotonicity predicates, random
    sampling and the two random sorts.  Conventions as in SearchModel.v, MutModel.v and
    FixModel.v; [dist g lo hi] is a draw of uniform_int_distribution(lo, hi) with the engine
    [g].  Nothing is proved in this file. *)
From Coq Require Import List Arith Bool ZArith.
From Verif Require Import Base SearchModel OrderModel MutModel FixModel.
Import ListNotations.

Section Fold.
  Context {A T : Type}.

  (** sprout/algorithm/fold_while.hpp 20-67 *)
  Definition fold_while (d : nat) (l : list A) (first last : nat) (init : T) (op : T -> A -> T) (pred : T -> bool)
      : res T :=
    s <- dbl (stop (fun s => (fst s =? last) || negb (pred (snd s))))
             (fun s => x <- rd l (fst s) ;; Ok (S (fst s), op (snd s) x))
             d (first, init) 1 ;;
    Ok (snd s).

  (** sprout/algorithm/fold_until.hpp 20-67 *)
  Definition fold_until (d : nat) (l : list A) (first last : nat) (init : T) (op : T -> A -> T) (pred : T -> bool)
      : res T :=
    s <- dbl (stop (fun s => (fst s =? last) || pred (snd s)))
             (fun s => x <- rd l (fst s) ;; Ok (S (fst s), op (snd s) x))
             d (first, init) 1 ;;
    Ok (snd s).
End Fold.

(** sprout/algorithm/is_increasing.hpp 25-30, is_decreasing.hpp 25-30,
    is_strictly_increasing.hpp 25-30, is_strictly_decreasing.hpp 25-30, for integers *)
Definition is_increasing (c : bool) (d : nat) (l : list Z) (first last : nat) : res bool :=
  is_sorted Z.ltb c d l first last.
Definition is_decreasing (c : bool) (d : nat) (l : list Z) (first last : nat) : res bool :=
  is_sorted Z.gtb c d l first last.
Definition is_strictly_increasing (c : bool) (d : nat) (l : list Z) (first last : nat) : res bool :=
  is_sorted Z.leb c d l first last.
Definition is_strictly_decreasing (c : bool) (d : nat) (l : list Z) (first last : nat) : res bool :=
  is_sorted Z.geb c d l first last.

Section Random.
  Context {A G : Type}.
  Variable dist : G -> nat -> nat -> nat * G.

  (** sprout/algorithm/cxx14/sample.hpp 20-43, an input population and a random access
      destination: [xs] is the population, [m] the memory of the destination; returns the
      memory, the iterator and the engine.  Distance is a type without overflow. *)
  Definition sample_reservoir (k : nat) (xs : list A) (first last : nat) (m : list A) (out n : nat) (g : G)
      : res (list A * nat * G) :=
    '(m, first, sample_size) <-
      iter k (fun '((m, first, sample_size) : list A * nat * nat) =>
        if negb (first =? last) && negb (sample_size =? n) then
          x <- rd xs first ;; m <- wr m (out + sample_size) x ;; Ok (inl (m, S first, S sample_size))
        else Ok (inr (m, first, sample_size)))
        (m, first, 0) ;;
    '(m, g) <-
      iter k (fun '((m, first, pop_size, g) : list A * nat * nat * G) =>
        if first =? last then Ok (inr (m, g))
        else
          let '(j, g) := dist g 0 pop_size in
          if j <? n then
            x <- rd xs first ;; m <- wr m (out + j) x ;; Ok (inl (m, S first, S pop_size, g))
          else Ok (inl (m, S first, S pop_size, g)))
        (m, first, sample_size, g) ;;
    Ok (m, out + sample_size, g).

  (** cxx14/sample.hpp 44-64, a forward population and an output destination *)
  Definition sample_selection (k : nat) (xs : list A) (first last : nat) (m : list A) (out n : nat) (g : G)
      : res (list A * nat * G) :=
    iter k (fun '((m, first, out, unsampled, n, g) : list A * nat * nat * nat * nat * G) =>
      if n =? 0 then Ok (inr (m, out, g))
      else
        u <- dec unsampled ;;
        let '(r, g) := dist g 0 u in
        if r <? n then
          x <- rd xs first ;; m <- wr m out x ;; Ok (inl (m, S first, S out, u, n - 1, g))
        else Ok (inl (m, S first, out, u, n, g)))
      (m, first, out, last - first, Nat.min n (last - first), g).

  Variable comp : A -> A -> bool.

  (** sprout/algorithm/cxx14/bogo_sort.hpp 20-33; [c], [d] are those of is_sorted, [k] bounds
      the turns of the loop and of those within shuffle *)
  Definition bogo_sort (c : bool) (d : nat) (k : nat) (m : list A) (first last : nat) (g : G) : res (list A * G) :=
    iter k (fun '((m, g) : list A * G) =>
      b <- is_sorted comp c d m first last ;;
      if b then Ok (inr (m, g))
      else '(m, g) <- shuffle dist d m first last g ;; Ok (inl (m, g)))
      (m, g).

  (** cxx14/bozo_sort.hpp 20-33 *)
  Definition bozo_sort (c : bool) (d : nat) (k : nat) (m : list A) (first last : nat) (g : G) : res (list A * G) :=
    iter k (fun '((m, g) : list A * G) =>
      b <- is_sorted comp c d m first last ;;
      if b then Ok (inr (m, g))
      else '(m, g) <- random_swap dist m first last g ;; Ok (inl (m, g)))
      (m, g).

  (** is_sorted(begin(cont), end(cont), comp) *)
  Definition cont_sorted (e : nat) (x : cont A) : res bool :=
    is_sorted comp true e (cbase x) (coff x) (coff x + csize x).

  (** sprout/algorithm/fixed/bogo_sort_result.hpp 26-79; [e] is the depth given to is_sorted
      and shuffle_result, [d] that of the search *)
  Definition fx_bogo_sort_result (d e : nat) (x : cont A) (g : G) : res (cont A * G) :=
    b <- cont_sorted e x ;;
    if b then Ok (x, g)
    else
      r <- fx_shuffle_result dist e x g ;;
      s <- dbl (stop (fun s : cont A * G * bool => snd s))
               (fun s => b <- cont_sorted e (fst (fst s)) ;;
                  if b then Ok (fst s, true)
                  else r <- fx_shuffle_result dist e (fst (fst s)) (snd (fst s)) ;; Ok (r, false))
               d (r, false) 1 ;;
      Ok (fst s).

  (** fixed/bozo_sort_result.hpp 26-79 *)
  Definition fx_bozo_sort_result (d e : nat) (x : cont A) (g : G) : res (cont A * G) :=
    b <- cont_sorted e x ;;
    if b then Ok (x, g)
    else
      r <- fx_random_swap_result dist x g ;;
      s <- dbl (stop (fun s : cont A * G * bool => snd s))
               (fun s => b <- cont_sorted e (fst (fst s)) ;;
                  if b then Ok (fst s, true)
                  else r <- fx_random_swap_result dist (fst (fst s)) (snd (fst s)) ;; Ok (r, false))
               d (r, false) 1 ;;
      Ok (fst s).

  (** fixed/bogo_sort.hpp 24-37, fixed/bozo_sort.hpp 24-37 *)
  Definition fx_bogo_sort (d e : nat) (x : cont A) (g : G) : res (cont A) :=
    r <- fx_bogo_sort_result d e x g ;; Ok (fst r).
  Definition fx_bozo_sort (d e : nat) (x : cont A) (g : G) : res (cont A) :=
    r <- fx_bozo_sort_result d e x g ;; Ok (fst r).
End Random.
