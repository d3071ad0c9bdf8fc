(** Model of sprout/random/mersenne_twister.hpp.  Nothing is proved here.

    UIntType is an unsigned type [t] not narrower than int and of at most 64 bits, so no operand
    is promoted.  The state is the array x_ and the index i_.  Reading or writing outside an
    array and shifting by the width or more are [UB].  The streaming operators are modelled only
    in part, and the C++11 version of operator== (rewind_1 .. rewind_finish, equal_impl) is not. *)
From Coq Require Import List Arith ZArith Bool.
From Verif Require Import Base BitModel ShaModel.
Import ListNotations.
Open Scope Z_scope.

(** for (j = lo; j < lo + k; ++j) *)
Fixpoint for_ {A : Type} (k lo : nat) (body : nat -> A -> res A) (s : A) : res A :=
  match k with
  | O => Ok s
  | S k => s <- body lo s ;; for_ k (S lo) body s
  end.

(** the template parameters, lines 24-28 *)
Record mtp : Type := Mtp {
  mt : ity; mw : Z; mn : nat; mm : nat; mr : Z; ma : Z; mu : Z; md_ : Z;
  ms : Z; mb : Z; mtt : Z; mc : Z; ml : Z; mf : Z }.

Section Mt.
  Variable P : mtp.
  Let t := mt P.
  Let w := mw P.
  Let n := mn P.
  Let m := mm P.
  Let a := ma P.

  (** lines 52-53, 376-377, 404-405 *)
  Definition upper_mask : res Z := shl true t (cpl t 0) (mr P).
  Definition lower_mask (upper : Z) : Z := cpl t upper.
  (** lines 61-63; detail/integer/integer_mask.hpp 30-57 *)
  Definition mt_max : Z := 2 ^ w - 1.

  (** lines 64-85; [i] is sizeof...(Args) + 1, a std::size_t of 64 bits *)
  Definition seed_next (i : nat) (value : Z) : res Z :=
    h <- shr t value (w - 2) ;;
    v <- arith t (mf P * Z.lxor value h) ;;
    q <- arith u64 (v + Z.of_nat i) ;;
    Ok (conv t (Z.land q mt_max)).
  Fixpoint init_seed_1 (k i : nat) (value : Z) : res (list Z) :=
    match k with
    | O => Ok [value]
    | S k => v <- seed_next i value ;; l <- init_seed_1 k (S i) v ;; Ok (value :: l)
    end.
  Definition mt_init_seed (value : Z) : res (list Z) := init_seed_1 (n - 1) 1 (Z.land value mt_max).
  (** lines 442-450 *)
  Definition mt_make (value : Z) : res (list Z * nat) := x <- mt_init_seed value ;; Ok (x, n).

  (** the body of the loops of do_twist, lines 381-400 *)
  Definition twist_at (j j1 jm : nat) (x : list Z) : res (list Z) :=
    x0 <- rd x j ;; x1 <- rd x j1 ;;
    upper <- upper_mask ;;
    let y := Z.lor (Z.land x0 upper) (Z.land x1 (lower_mask upper)) in
    xm <- rd x jm ;;
    h <- shr t y 1 ;;
    v <- arith t (Z.land x1 1 * a) ;;
    wr x j (Z.lxor (Z.lxor xm h) v).
  (** lines 375-402 *)
  Definition do_twist (x : list Z) : res (list Z) :=
    let extra1 := ((n - m) mod 6)%nat in
    let extra2 := ((m - 1) mod 6)%nat in
    x <- for_ (n - m - extra1) 0 (fun j => twist_at j (j + 1) (j + m)) x ;;
    x <- for_ extra1 (n - m - extra1) (fun j => twist_at j (j + 1) (j + m)) x ;;
    x <- for_ (n - 1 - extra2 - (n - m)) (n - m) (fun j => twist_at j (j + 1) (j - (n - m))) x ;;
    x <- for_ extra2 (n - 1 - extra2) (fun j => twist_at j (j + 1) (j - (n - m))) x ;;
    twist_at (n - 1) 0 (m - 1) x.
  (** lines 460-465 *)
  Definition mt_temper (z : Z) : res Z :=
    h <- shr t z (mu P) ;; let z := Z.lxor z (Z.land h (md_ P)) in
    h <- shl true t z (ms P) ;; let z := Z.lxor z (Z.land h (mb P)) in
    h <- shl true t z (mtt P) ;; let z := Z.lxor z (Z.land h (mc P)) in
    h <- shr t z (ml P) ;; Ok (Z.lxor z h).
  (** lines 455-472 *)
  Definition mt_step (e : list Z * nat) : res (Z * (list Z * nat)) :=
    e <- (if (snd e =? n)%nat then x <- do_twist (fst e) ;; Ok (x, O) else Ok e) ;;
    z <- rd (fst e) (snd e) ;;
    v <- mt_temper z ;;
    Ok (v, (fst e, S (snd e))).

  (** ** operator== (C++14) *)

  (** lines 94-104: last is &back[n - 1] *)
  Definition rewind_find (x back : list Z) (size i : nat) : res Z :=
    let index := ((i + n - size + n - 1) mod n)%nat in
    if (index <? n - size)%nat then rd x index else rd back (n - 1 - (n - 1 - index)).
  (** lines 407-411, 414-418 *)
  Definition untwist (y : Z) : res Z :=
    h <- shl true t 1 (w - 1) ;;
    if negb (Z.land y h =? 0) then v <- shl true t (Z.lxor y a) 1 ;; Ok (Z.lor v 1)
    else shl true t y 1.
  (** lines 403-422 *)
  Definition do_rewind (x back : list Z) (z : nat) : res (list Z) :=
    p <- rd x (m - 1) ;; q <- rd x (n - 1) ;;
    y0 <- untwist (Z.lxor p q) ;;
    upper <- upper_mask ;;
    s <- for_ z 0 (fun sz s =>
           let '(back, y0) := s in
           p <- rewind_find x back sz (m - 1) ;; q <- rewind_find x back sz (n - 1) ;;
           y1 <- untwist (Z.lxor p q) ;;
           back <- wr back (n - 1 - sz) (Z.lor (Z.land y0 upper) (Z.land y1 (lower_mask upper))) ;;
           Ok (back, y1)) (back, y0) ;;
    Ok (fst s).
  (** lines 423-439: the loops stop at the first difference; reading on has no effect *)
  Definition do_equal_impl (e other : list Z * nat) : res bool :=
    let offset := (snd other - snd e)%nat in
    b <- for_ (n - offset) 0 (fun j b =>
           p <- rd (fst e) j ;; q <- rd (fst other) (j + offset) ;; Ok (b && (p =? q))) true ;;
    if b then
      back <- do_rewind (fst e) (repeat 0 n) offset ;;
      for_ offset 0 (fun j b =>
        p <- rd back (j + n - offset) ;; q <- rd (fst other) j ;; Ok (b && (p =? q))) true
    else Ok false.
  (** lines 482-487 *)
  Definition mt_equal (lhs rhs : list Z * nat) : res bool :=
    if (snd lhs <? snd rhs)%nat then do_equal_impl lhs rhs else do_equal_impl rhs lhs.

  (** ** the C++11 version of the const operator() *)

  (** lines 298-371: >> binds tighter than | *)
  Definition twist11_word (x : list Z) (j j1 jm : nat) : res Z :=
    x0 <- rd x j ;; x1 <- rd x j1 ;; xm <- rd x jm ;;
    upper <- upper_mask ;;
    h <- shr t (Z.land x1 (lower_mask upper)) 1 ;;
    v <- arith t (Z.land x1 1 * a) ;;
    Ok (Z.lxor (Z.lxor xm (Z.lor (Z.land x0 upper) h)) v).
  Definition twist11 (x : list Z) : res (list Z) :=
    l <- for_ (n - m) 0 (fun j l => v <- twist11_word x j (j + 1) (j + m) ;; Ok (l ++ [v])) [] ;;
    l <- for_ (m - 1) (n - m) (fun j l => v <- twist11_word x j (j + 1) (j - (n - m)) ;; Ok (l ++ [v])) l ;;
    v <- twist11_word x (n - 1) 0 (m - 1) ;; Ok (l ++ [v]).
  (** lines 273-284 *)
  Definition temper11 (z : Z) : res Z :=
    h <- shr t z (mu P) ;; let z1 := Z.land h (md_ P) in
    h <- shl true t z1 (ms P) ;; let z2 := Z.land h (mb P) in
    h <- shl true t z2 (mtt P) ;; let z3 := Z.land h (mc P) in
    h <- shr t z3 (ml P) ;;
    Ok (Z.lxor z (Z.lxor z1 (Z.lxor z2 (Z.lxor z3 h)))).
  (** lines 285-297, 474-479 *)
  Definition mt_step11 (e : list Z * nat) : res (Z * (list Z * nat)) :=
    e <- (if (snd e =? n)%nat then x <- twist11 (fst e) ;; Ok (x, O) else Ok e) ;;
    z <- rd (fst e) (snd e) ;;
    v <- temper11 z ;;
    Ok (v, (fst e, S (snd e))).

  (** ** streaming *)

  (** lines 515-533 for an engine with i_ = n (otherwise rewind is called): the numbers written *)
  Definition mt_write_full (e : list Z * nat) : res (list Z) :=
    h <- rd (fst e) 0 ;;
    l <- for_ (snd e) 0 (fun i l => v <- rd (fst e) i ;; Ok (l ++ [v])) [] ;;
    Ok (h :: l).
  (** lines 502-514: the engine read from the numbers, and the numbers left *)
  Definition mt_read (l : list Z) : option ((list Z * nat) * list Z) :=
    if (length l <? n)%nat then None else Some ((firstn n l, n), skipn n l).
End Mt.

(** lines 650-705; std::uint_fast32_t may have 32 or 64 bits *)
Definition mt11213b (t : ity) : mtp :=
  Mtp t 32 351 175 19 3433795303 11 4294967295 7 834054912 15 4293197824 17 1812433253.
Definition mt19937 (t : ity) : mtp :=
  Mtp t 32 624 397 31 2567483615 11 4294967295 7 2636928640 15 4022730752 18 1812433253.
Definition mt19937_64 : mtp :=
  Mtp u64 64 312 156 31 13043109905998158313 29 6148914691236517205 17 8202884508482404352 37 18444473444759240704 43 6364136223846793005.
