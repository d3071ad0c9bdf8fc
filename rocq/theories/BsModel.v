(** Model of sprout/bitset/bitset.hpp and bitwise.hpp.  Nothing is proved here.

    A bitset<N> is the list of its words, the lowest first.  [t] is unsigned long, of which the
    code assumes nothing but that it is not wider than unsigned long long (64 bits).  Sizes and
    positions are natural numbers: the code only divides them, so that no size_type overflows.
    [cst] selects the const overloads, which return a new object; the others work in place.
    The partial specialisations base_bitset<1> and base_bitset<0> are modelled as such.

    Not modelled: find_first and find_next, whose calls do not compile (bitset's own functions
    hide those of the base, and find_next_impl_2 lacks an argument), the constructor from Char
    const* (it names the type size_typeype and is never viable), hashing (hash.hpp), io.hpp.
    setword and getword are the reads and
    writes of a word.  Line numbers are those of bitset.hpp. *)
From Coq Require Import List Arith ZArith Bool.
From Verif Require Import Base BitModel MtModel.
Import ListNotations.
Open Scope Z_scope.

(** a value, or an exception *)
Inductive thrown (A : Type) : Type :=
| Val (a : A)
| Out_of_range
| Invalid_argument
| Overflow_error.
Arguments Val {A}.
Arguments Out_of_range {A}.
Arguments Invalid_argument {A}.
Arguments Overflow_error {A}.

Section Bs.
  Variable il : nat.      (* lg of int *)
  Variable bi : bool.     (* SPROUT_USE_BUILTIN_BIT_OPERATION *)
  Variable t : ity.       (* unsigned long *)
  Definition wbits : nat := Z.to_nat (wid t).
  Definition ull : ity := Ity false 3.

  (** the words of a pack expansion (f(Indexes))... *)
  Fixpoint tab_from {A : Type} (f : nat -> res A) (i n : nat) : res (list A) :=
    match n with
    | O => Ok []
    | S n => x <- f i ;; l <- tab_from f (S i) n ;; Ok (x :: l)
    end.
  Definition tab {A : Type} (n : nat) (f : nat -> res A) : res (list A) := tab_from f 0 n.

  (** ** base_bitset, lines 86-101, 494-509, 688-706 *)
  Definition whichword (pos : nat) : nat := (pos / wbits)%nat.
  Definition whichbit (pos : nat) : nat := (pos mod wbits)%nat.
  Definition maskbit (pos : nat) : res Z := shl true t 1 (Z.of_nat (whichbit pos)).
  Definition all1 : Z := cpl t 0.

  (** lines 282-317, 571-594, 745-762: do_and, do_or, do_xor, word by word or by fixed::transform *)
  Definition zip_words (cst : bool) (f : Z -> Z -> Z) (w x : list Z) : res (list Z) :=
    if cst then tab (length w) (fun i => a <- rd w i ;; b <- rd x i ;; Ok (f a b))
    else for_ (length w) 0 (fun i w => a <- rd w i ;; b <- rd x i ;; wr w i (f a b)) w.
  (** lines 376-387, 611-618, 775-780: do_flip *)
  Definition flip_words (cst : bool) (w : list Z) : res (list Z) :=
    if cst then tab (length w) (fun i => a <- rd w i ;; Ok (cpl t a))
    else for_ (length w) 0 (fun i w => a <- rd w i ;; wr w i (cpl t a)) w.
  (** lines 388-405, 619-634, 781-792: do_set, do_reset *)
  Definition fill_words (cst : bool) (v : Z) (w : list Z) : res (list Z) :=
    if cst then tab (length w) (fun _ => Ok v)
    else for_ (length w) 0 (fun i w => wr w i v) w.

  (** for (size_type n = n0; n >= stop; --n); at 0 the decrement would wrap around *)
  Fixpoint down {A : Type} (n stop : nat) (body : nat -> A -> res A) (s : A) : res A :=
    if Nat.ltb n stop then Ok s
    else
      s <- body n s ;;
      match n with
      | O => UB
      | S n => down n stop body s
      end.

  (** lines 140-182, 337-345 (const), 318-336; base_bitset<1>: 595-602, where the const overload
      takes the position converted to base_bitset<1> and back; base_bitset<0>: 763-768 *)
  Definition left_words (cst : bool) (w : list Z) (shift : nat) : res (list Z) :=
    let n := length w in
    let wshift := (shift / wbits)%nat in
    let offset := (shift mod wbits)%nat in
    let sub := (wbits - offset)%nat in
    let two w hi lo :=
      a <- rd w hi ;; b <- rd w lo ;;
      a <- shl true t a (Z.of_nat offset) ;; b <- shr t b (Z.of_nat sub) ;; Ok (Z.lor a b) in
    match w with
    | [] => Ok w
    | [x] => y <- shl true t x (Z.of_nat shift) ;; Ok [y]
    | _ =>
      if Nat.eqb shift 0 then Ok w
      else if cst then
        if Nat.eqb offset 0 then tab n (fun i => if Nat.leb wshift i then rd w (i - wshift) else Ok 0)
        else tab n (fun i =>
          if Nat.ltb wshift i then two w (i - wshift)%nat (i - wshift - 1)%nat
          else if Nat.eqb i wshift then a <- rd w 0 ;; shl true t a (Z.of_nat offset)
          else Ok 0)
      else
        w <- (if Nat.eqb offset 0 then
                down (n - 1) wshift (fun i w => a <- rd w (i - wshift) ;; wr w i a) w
              else
                w <- down (n - 1) (S wshift) (fun i w => a <- two w (i - wshift)%nat (i - wshift - 1)%nat ;; wr w i a) w ;;
                a <- rd w 0 ;; a <- shl true t a (Z.of_nat offset) ;; wr w wshift a) ;;
        for_ wshift 0 (fun i w => wr w i 0) w
    end.

  (** lines 183-226, 366-375 (const), 346-365; base_bitset<1>: 603-610; base_bitset<0>: 769-774.
      limit = N - wshift - 1 is not negative: operator>>= has checked the position. *)
  Definition right_words (cst : bool) (w : list Z) (shift : nat) : res (list Z) :=
    let n := length w in
    let wshift := (shift / wbits)%nat in
    let offset := (shift mod wbits)%nat in
    let sub := (wbits - offset)%nat in
    let limit := (n - wshift - 1)%nat in
    let two w lo hi :=
      a <- rd w lo ;; b <- rd w hi ;;
      a <- shr t a (Z.of_nat offset) ;; b <- shl true t b (Z.of_nat sub) ;; Ok (Z.lor a b) in
    match w with
    | [] => Ok w
    | [x] => y <- shr t x (Z.of_nat shift) ;; Ok [y]
    | _ =>
      if Nat.eqb shift 0 then Ok w
      else if cst then
        if Nat.eqb offset 0 then tab n (fun i => if Nat.leb i limit then rd w (i + wshift) else Ok 0)
        else tab n (fun i =>
          if Nat.ltb i limit then two w (i + wshift)%nat (i + wshift + 1)%nat
          else if Nat.eqb i limit then a <- rd w (n - 1) ;; shr t a (Z.of_nat offset)
          else Ok 0)
      else
        w <- (if Nat.eqb offset 0 then
                for_ (S limit) 0 (fun i w => a <- rd w (i + wshift) ;; wr w i a) w
              else
                w <- for_ limit 0 (fun i w => a <- two w (i + wshift)%nat (i + wshift + 1)%nat ;; wr w i a) w ;;
                a <- rd w (n - 1) ;; a <- shr t a (Z.of_nat offset) ;; wr w limit a) ;;
        for_ (n - (limit + 1)) (limit + 1) (fun i w => wr w i 0) w
    end.

  (** lines 407-410, 636-639, 794-797: sprout::equal *)
  Fixpoint equal_words (w x : list Z) : bool :=
    match w, x with
    | a :: w, b :: x => (a =? b) && equal_words w x
    | _, _ => true
    end.
  (** lines 57-63, 411-417, 640-644, 798-802 *)
  Definition all_words (N : nat) (w : list Z) : res bool :=
    match w with
    | [] => Ok true
    | [x] => m <- shr t all1 (wid t - Z.of_nat N) ;; Ok (x =? m)
    | _ =>
      if forallb (fun x => x =? all1) (firstn (length w - 1) w) then
        h <- rd w (length w - 1) ;;
        m <- shr t all1 (Z.of_nat (length w) * wid t - Z.of_nat N) ;;
        Ok (h =? m)
      else Ok false
    end.
  (** lines 64-70, 418-421, 645-648, 803-806 *)
  Definition any_words (w : list Z) : bool := existsb (fun x => negb (x =? 0)) w.
  (** lines 78-84, 422-425, 649-652, 807-810; [d] bounds the depth of popcount *)
  Fixpoint count_words (d : nat) (c : Z) (w : list Z) : res Z :=
    match w with
    | [] => Ok c
    | x :: w => p <- popcount il bi t d x ;; count_words d (c + p) w
    end.
  (** lines 71-77, 427-433, 654-657, 812-815 *)
  Definition ulong_words (w : list Z) : thrown Z :=
    match w with
    | [] => Val 0
    | [x] => Val x
    | x :: l => if existsb (fun x => negb (x =? 0)) l then Overflow_error else Val x
    end.
  (** lines 434-448, 658-661, 816-819 *)
  Definition ullong_words (w : list Z) : res (thrown Z) :=
    match w with
    | [] => Ok (Val 0)
    | [x] => Ok (Val x)
    | x :: y :: l =>
      if wid t <? wid ull then
        if existsb (fun x => negb (x =? 0)) l then Ok Overflow_error
        else h <- shl true ull y (wid t) ;; s <- arith ull (x + h) ;; Ok (Val s)
      else if existsb (fun x => negb (x =? 0)) (y :: l) then Ok Overflow_error
      else Ok (Val x)
    end.

  (** ** bitset<N>, lines 930-939 *)
  Section N.
    Variable N : nat.
    Definition nwords : nat := (N / wbits + (if Nat.eqb (N mod wbits) 0 then 0 else 1))%nat.
    (** lines 835-860, 997-1010 *)
    Definition sanitize (w : list Z) : res (list Z) :=
      let extra := (N mod wbits)%nat in
      match w with
      | [] => Ok w
      | _ =>
        if Nat.eqb extra 0 then Ok w
        else
          h <- rd w (length w - 1) ;;
          m <- shl true t all1 (Z.of_nat extra) ;;
          wr w (length w - 1) (Z.land h (cpl t m))
      end.
    (** lines 228-230, 518-520, 708, 1109-1111: the default constructor *)
    Definition bs_zero : list Z := repeat 0 nwords.
    (** lines 862-877, 1113-1115; base_bitset(unsigned long long): 232-234, 522-524, 710 *)
    Definition bs_of_ull (val : Z) : res (list Z) :=
      val <- (if Nat.ltb N 64 then m <- shl true ull (cpl ull 0) (Z.of_nat N) ;; Ok (Z.land val (cpl ull m)) else Ok val) ;;
      match nwords with
      | O => Ok []
      | S O => Ok [conv t val]
      | S (S n) => h <- shr ull val (wid t) ;; Ok (conv t val :: conv t h :: repeat 0 n)
      end.

    (** lines 1012-1053: unchecked_set, unchecked_reset, unchecked_flip, in place or by setword
        (248-260, 537-548); the reference of operator[] does the same (945-990).  base_bitset<1>
        ignores the number of the word, which is 0 for the positions below N. *)
    Definition at_word (w : list Z) (pos : nat) (f : Z -> Z -> Z) : res (list Z) :=
      m <- maskbit pos ;; a <- rd w (whichword pos) ;; wr w (whichword pos) (f a m).
    Definition unchecked_set (w : list Z) (pos : nat) (val : bool) : res (list Z) :=
      at_word w pos (fun a m => if val then Z.lor a m else Z.land a (cpl t m)).
    Definition unchecked_reset (w : list Z) (pos : nat) : res (list Z) :=
      at_word w pos (fun a m => Z.land a (cpl t m)).
    Definition unchecked_flip (w : list Z) (pos : nat) : res (list Z) :=
      at_word w pos (fun a m => Z.lxor a m).
    (** lines 1054-1057, and operator[] 1286-1289 *)
    Definition unchecked_test (w : list Z) (pos : nat) : res bool :=
      m <- maskbit pos ;; a <- rd w (whichword pos) ;; Ok (negb (Z.land a m =? 0)).

    Definition checked {A : Type} (pos : nat) (r : res A) : res (thrown A) :=
      if Nat.leb N pos then Ok Out_of_range else x <- r ;; Ok (Val x).
    (** lines 1218-1230, 1240-1252, 1263-1275, 1357-1362 *)
    Definition bs_set (w : list Z) (pos : nat) (val : bool) : res (thrown (list Z)) := checked pos (unchecked_set w pos val).
    Definition bs_reset (w : list Z) (pos : nat) : res (thrown (list Z)) := checked pos (unchecked_reset w pos).
    Definition bs_flip (w : list Z) (pos : nat) : res (thrown (list Z)) := checked pos (unchecked_flip w pos).
    Definition bs_test (w : list Z) (pos : nat) : res (thrown bool) := checked pos (unchecked_test w pos).

    (** lines 1173-1187; bitwise.hpp 18-32 *)
    Definition bs_and (cst : bool) : list Z -> list Z -> res (list Z) := zip_words cst Z.land.
    Definition bs_or (cst : bool) : list Z -> list Z -> res (list Z) := zip_words cst Z.lor.
    Definition bs_xor (cst : bool) : list Z -> list Z -> res (list Z) := zip_words cst Z.lxor.
    (** lines 1188-1207, 1375-1388 *)
    Definition bs_left (cst : bool) (w : list Z) (pos : nat) : res (list Z) :=
      if Nat.ltb pos N then w <- left_words cst w pos ;; sanitize w else fill_words cst 0 w.
    Definition bs_right (cst : bool) (w : list Z) (pos : nat) : res (list Z) :=
      if Nat.ltb pos N then w <- right_words cst w pos ;; sanitize w else fill_words cst 0 w.
    (** lines 1208-1217, 1231-1239, 1253-1262, 1276-1279 *)
    Definition bs_set_all (cst : bool) (w : list Z) : res (list Z) := w <- fill_words cst all1 w ;; sanitize w.
    Definition bs_reset_all (cst : bool) (w : list Z) : res (list Z) := fill_words cst 0 w.
    Definition bs_flip_all (cst : bool) (w : list Z) : res (list Z) := w <- flip_words cst w ;; sanitize w.
    (** lines 1341-1374 *)
    Definition bs_all : list Z -> res bool := all_words N.
    Definition bs_any : list Z -> bool := any_words.
    Definition bs_none (w : list Z) : bool := negb (any_words w).
    Definition bs_count (d : nat) : list Z -> res Z := count_words d 0.
    Definition bs_eq : list Z -> list Z -> bool := equal_words.

    (** lines 1059-1082, 1093-1097, 1116-1146: the constructors from a string; npos is any n not
        less than the length *)
    Fixpoint copy_loop (s : list Z) (pos nbits : nat) (zero one : Z) (i : nat) (w : list Z) : res (thrown (list Z)) :=
      match i with
      | O => Ok (Val w)
      | S i1 =>
        c <- rd s (pos + nbits - i) ;;
        if c =? zero then copy_loop s pos nbits zero one i1 w
        else if c =? one then w <- unchecked_set w i1 true ;; copy_loop s pos nbits zero one i1 w
        else Ok Invalid_argument
      end.
    Definition bs_of_string (s : list Z) (pos n : nat) (zero one : Z) : res (thrown (list Z)) :=
      if Nat.ltb (length s) pos then Ok Out_of_range
      else
        let nbits := Nat.min N (Nat.min n (length s - pos)) in
        copy_loop s pos nbits zero one nbits bs_zero.
    (** lines 1083-1092, 1098-1102, 1298-1339 *)
    Definition bs_to_string (w : list Z) (zero one : Z) : res (list Z) :=
      down N 1 (fun i s => b <- unchecked_test w (i - 1) ;; if b : bool then wr s (N - i) one else Ok s) (repeat zero N).
  End N.
End Bs.
