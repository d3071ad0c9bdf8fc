(** Models of the iterator adaptors and of the range adaptors built from them
    (sprout/iterator/*.hpp, sprout/range/adaptor/*.hpp), of next, prev, advance and
    distance for iterators without random access, and of the saturating arithmetic the
    adaptors use (sprout/utility/limited.hpp).

    Random-access base iterators are positions (integers) in a list, 0 to its length;
    moving one outside is undefined.  The adaptors over weaker iterators use natural
    positions and the search models.  [operator++] and [next()] of one class are one
    definition when their code is the same. *)
From Coq Require Import List Arith Bool ZArith.
From Verif Require Import Base SearchModel.
Import ListNotations.
Open Scope Z_scope.

(** ** Base iterators *)

Definition len {A} (l : list A) : Z := Z.of_nat (length l).

(** [p + k] in a sequence of [n] elements *)
Definition mv (n p k : Z) : res Z :=
  if (0 <=? p + k) && (p + k <=? n) then Ok (p + k) else UB.

(** [*p] *)
Definition get {A} (l : list A) (p : Z) : res A :=
  if p <? 0 then UB else rd l (Z.to_nat p).

(** ++ and -- of a natural position *)
Definition nxt {A} (l : list A) (p : nat) : res nat :=
  if (p <? length l)%nat then Ok (S p) else UB.
Definition prv (p : nat) : res nat :=
  match p with O => UB | S p' => Ok p' end.

(** [for (; !at_end(it); ++it) out = out + *it], at most [k] tests of the condition *)
Fixpoint walk {S A} (k : nat) (at_end : S -> bool) (next : S -> res S) (deref : S -> res A) (s : S) : res (list A) :=
  match k with
  | O => Fuel
  | Datatypes.S k' =>
      if at_end s then Ok []
      else x <- deref s ;; t <- next s ;; xs <- walk k' at_end next deref t ;; Ok (x :: xs)
  end.

(** [while (it != first) out = out + *--it] *)
Fixpoint walk_back {S A} (k : nat) (at_begin : S -> bool) (prev : S -> res S) (deref : S -> res A) (s : S) : res (list A) :=
  match k with
  | O => Fuel
  | Datatypes.S k' =>
      if at_begin s then Ok []
      else t <- prev s ;; x <- deref t ;; xs <- walk_back k' at_begin prev deref t ;; Ok (x :: xs)
  end.

(** ** limited::plus and limited::multiplies  (sprout/utility/limited.hpp).
    Both operands already have the promoted type, whose limits are [lo] and [hi];
    leaving the type is undefined (signed), and cannot happen in the unsigned case. *)
Section Limited.
  Variables lo hi : Z.

  Definition chk (x : Z) : res Z := if (lo <=? x) && (x <=? hi) then Ok x else UB.

  (** 19-30 *)
  Definition lplus (lhs rhs : Z) : res Z :=
    if (0 <? lhs) && (0 <? rhs) && (hi - lhs <? rhs) then Ok hi
    else if (lhs <? 0) && (rhs <? 0) && (rhs <? lo - lhs) then Ok lo
    else chk (lhs + rhs).

  (** [x / y + (x % y ? 1 : 0)]; both operations are undefined if the quotient is not
      representable *)
  Definition div_up (x y : Z) : res Z :=
    q <- chk (Z.quot x y) ;; chk (q + (if Z.rem x y =? 0 then 0 else 1)).

  (** 34-49.  The four conditions exclude each other by the signs of the operands. *)
  Definition lmultiplies (lhs rhs : Z) : res Z :=
    if (0 <? lhs) && (0 <? rhs) then
      q <- div_up hi lhs ;; if q <=? rhs then Ok hi else chk (lhs * rhs)
    else if (0 <? lhs) && (rhs <? 0) then
      q <- div_up lo rhs ;; if q <=? lhs then Ok lo else chk (lhs * rhs)
    else if (lhs <? 0) && (0 <? rhs) then
      q <- div_up lo lhs ;; if q <=? rhs then Ok lo else chk (lhs * rhs)
    else if (lhs <? 0) && (rhs <? 0) then
      q <- div_up lo rhs ;; if lhs <=? - q then Ok hi else chk (lhs * rhs)
    else chk (lhs * rhs).
End Limited.

(** std::ptrdiff_t *)
Definition pmin : Z := - 2 ^ 63.
Definition pmax : Z := 2 ^ 63 - 1.

(** ** reverse_iterator  (sprout/iterator/reverse_iterator.hpp); the state is [current] *)
Section Reverse.
  Context {A : Type}.
  Variable l : list A.

  (** 61-63 *)
  Definition rv_deref (s : Z) : res A := p <- mv (len l) s (-1) ;; get l p.
  (** 67-75, 104-106 *)
  Definition rv_next (s : Z) : res Z := mv (len l) s (-1).
  (** 76-84, 107-109 *)
  Definition rv_prev (s : Z) : res Z := mv (len l) s 1.
  (** 85-87 *)
  Definition rv_plus (s n : Z) : res Z := mv (len l) s (- n).
  (** 88-90 *)
  Definition rv_minus (s n : Z) : res Z := mv (len l) s n.
  (** 101-103 *)
  Definition rv_sub (s n : Z) : res A := p <- mv (len l) s (- (n + 1)) ;; get l p.
  (** 120-123 *)
  Definition rv_eq (s t : Z) : bool := s =? t.
  (** 130-133; >, <=, >= (135-148) are made from it *)
  Definition rv_lt (s t : Z) : bool := s <? t.
  Definition rv_gt (s t : Z) : bool := rv_lt t s.
  Definition rv_le (s t : Z) : bool := negb (rv_lt t s).
  Definition rv_ge (s t : Z) : bool := negb (rv_lt s t).
  (** 150-153: lhs - rhs *)
  Definition rv_diff (s t : Z) : Z := t - s.

  (** sprout/range/adaptor/reversed.hpp 43-48 *)
  Definition rv_begin : Z := len l.
  Definition rv_end : Z := 0.
  Definition reversed (k : nat) : res (list A) :=
    walk k (fun s => rv_eq s rv_end) rv_next rv_deref rv_begin.
End Reverse.

(** ** joint_iterator  (sprout/iterator/joint_iterator.hpp); the state is [current1],
    [current2]; last1 = end of [l1], first2 = begin of [l2] *)
Section Joint.
  Context {A : Type}.
  Variables l1 l2 : list A.

  (** 103-105 *)
  Definition jt_left (s : Z * Z) : bool := negb (fst s =? len l1).
  (** 106-108 *)
  Definition jt_deref (s : Z * Z) : res A := if jt_left s then get l1 (fst s) else get l2 (snd s).
  (** 112-128, 165-169 *)
  Definition jt_next (s : Z * Z) : res (Z * Z) :=
    if jt_left s then p <- mv (len l1) (fst s) 1 ;; Ok (p, snd s)
    else p <- mv (len l2) (snd s) 1 ;; Ok (fst s, p).
  (** 129-145, 170-174 *)
  Definition jt_prev (s : Z * Z) : res (Z * Z) :=
    if 0 =? snd s then p <- mv (len l1) (fst s) (-1) ;; Ok (p, snd s)
    else p <- mv (len l2) (snd s) (-1) ;; Ok (fst s, p).
  (** 49-53 *)
  Definition jt_posite (s : Z * Z) (n d : Z) : res (Z * Z) :=
    if d <? n then p <- mv (len l2) (snd s) (n - d) ;; Ok (len l1, p)
    else p <- mv (len l1) (fst s) n ;; Ok (p, snd s).
  (** 54-58 *)
  Definition jt_negate (s : Z * Z) (n d : Z) : res (Z * Z) :=
    if negb (d <? n) then p <- mv (len l1) (fst s) (n - d) ;; Ok (p, 0)
    else p <- mv (len l2) (snd s) n ;; Ok (fst s, p).
  (** 59-67, 146-151 *)
  Definition jt_plus (s : Z * Z) (n : Z) : res (Z * Z) :=
    if 0 <=? n then
      if jt_left s then jt_posite s n (len l1 - fst s)
      else p <- mv (len l2) (snd s) n ;; Ok (fst s, p)
    else if 0 =? snd s then p <- mv (len l1) (fst s) n ;; Ok (p, snd s)
    else jt_negate s n (- snd s).
  Definition jt_minus (s : Z * Z) (n : Z) : res (Z * Z) := jt_plus s (- n).
  (** 162-164 *)
  Definition jt_sub (s : Z * Z) (n : Z) : res A := t <- jt_plus s n ;; jt_deref t.
  (** 194-200 *)
  Definition jt_eq (s t : Z * Z) : bool := (fst s =? fst t) && (snd s =? snd t).
  (** 216-225; >, <=, >= (230-258) are made from it *)
  Definition jt_lt (s t : Z * Z) : bool :=
    if jt_left s && jt_left t then fst s <? fst t
    else if negb (jt_left s) && negb (jt_left t) then snd s <? snd t
    else jt_left s.
  Definition jt_gt (s t : Z * Z) : bool := jt_lt t s.
  Definition jt_le (s t : Z * Z) : bool := negb (jt_lt t s).
  Definition jt_ge (s t : Z * Z) : bool := negb (jt_lt s t).
  (** 263-277: lhs - rhs *)
  Definition jt_diff (s t : Z * Z) : res Z :=
    if jt_left s && jt_left t then Ok (fst s - fst t)
    else if negb (jt_left s) && negb (jt_left t) then Ok (snd s - snd t)
    else if jt_left s then lplus pmin pmax (len l1 - fst s) (snd t - 0)
    else lplus pmin pmax (snd s - 0) (len l1 - fst t).

  (** sprout/range/adaptor/jointed.hpp 51-56 *)
  Definition jt_begin : Z * Z := (0, 0).
  Definition jt_end : Z * Z := (len l1, len l2).
  Definition jointed (k : nat) : res (list A) :=
    walk k (fun s => jt_eq s jt_end) jt_next jt_deref jt_begin.
  Definition jointed_back (k : nat) : res (list A) :=
    walk_back k (fun s => jt_eq s jt_begin) jt_prev jt_deref jt_end.
End Joint.

(** ** alternate_iterator  (sprout/iterator/alternate_iterator.hpp); the state is
    [current1], [current2], [in_left] *)
Section Alternate.
  Context {A : Type}.
  Variables l1 l2 : list A.
  Definition alt : Type := (Z * Z * bool)%type.

  (** 85-87 *)
  Definition al_deref (s : alt) : res A :=
    let '(a, b, e) := s in if e : bool then get l1 a else get l2 b.
  (** 91-111, 152-156 *)
  Definition al_next (s : alt) : res alt :=
    let '(a, b, e) := s in
    if e : bool then Ok (a, b, false)
    else a' <- mv (len l1) a 1 ;; b' <- mv (len l2) b 1 ;; Ok (a', b', true).
  (** 112-132, 157-161 *)
  Definition al_prev (s : alt) : res alt :=
    let '(a, b, e) := s in
    if e : bool then a' <- mv (len l1) a (-1) ;; b' <- mv (len l2) b (-1) ;; Ok (a', b', false)
    else Ok (a, b, true).
  (** 49-54, 133-138 *)
  Definition al_plus (s : alt) (n : Z) : res alt :=
    let '(a, b, e) := s in
    let m := n + (if e : bool then 0 else 1) in
    a' <- mv (len l1) a (Z.quot m 2) ;; b' <- mv (len l2) b (Z.quot m 2) ;;
    Ok (a', b', Z.rem m 2 =? 0).
  Definition al_minus (s : alt) (n : Z) : res alt := al_plus s (- n).
  (** 149-151 *)
  Definition al_sub (s : alt) (n : Z) : res A := t <- al_plus s n ;; al_deref t.
  (** 179-185 *)
  Definition al_eq (s t : alt) : bool :=
    let '(a, _, e) := s in let '(a', _, e') := t in (a =? a') && Bool.eqb e e'.
  (** 201-207; >, <=, >= (212-240) are made from it *)
  Definition al_lt (s t : alt) : bool :=
    let '(a, _, e) := s in let '(a', _, e') := t in (a <? a') || ((a =? a') && e && negb e').
  Definition al_gt (s t : alt) : bool := al_lt t s.
  Definition al_le (s t : alt) : bool := negb (al_lt t s).
  Definition al_ge (s t : alt) : bool := negb (al_lt s t).
  (** 245-255: lhs - rhs *)
  Definition al_diff (s t : alt) : res Z :=
    let '(a, _, e) := s in let '(a', _, e') := t in
    m <- lmultiplies pmin pmax (a - a') 2 ;;
    lplus pmin pmax m (if e : bool then (if e' : bool then 0 else 1) else (if e' : bool then 1 else 0)).

  (** sprout/range/adaptor/alternated.hpp 53-61 *)
  Definition al_begin : alt := (0, 0, true).
  Definition al_end : res alt :=
    a <- mv (len l1) 0 (Z.min (len l1) (len l2)) ;; b <- mv (len l2) 0 (Z.min (len l1) (len l2)) ;; Ok (a, b, true).
  Definition alternated (k : nat) : res (list A) :=
    e <- al_end ;; walk k (fun s => al_eq s e) al_next al_deref al_begin.
  Definition alternated_back (k : nat) : res (list A) :=
    e <- al_end ;; walk_back k (fun s => al_eq s al_begin) al_prev al_deref e.
End Alternate.

(** ** insert_range_iterator  (sprout/iterator/insert_range_iterator.hpp); the state is
    [current1], [current2]; first2 and last2 are the ends of [l2].  operator+ (50-68,
    148-166) calls a constructor that does not exist and is not modelled. *)
Section InsertRange.
  Context {A : Type}.
  Variables l1 l2 : list A.
  Variable pos : Z.

  (** 105-107 *)
  Definition ir_in_base (s : Z * Z) : bool := negb (fst s =? pos) || (snd s =? len l2).
  (** 108-110 *)
  Definition ir_deref (s : Z * Z) : res A := if ir_in_base s then get l1 (fst s) else get l2 (snd s).
  (** 114-130, 167-171 *)
  Definition ir_next (s : Z * Z) : res (Z * Z) :=
    if ir_in_base s then p <- mv (len l1) (fst s) 1 ;; Ok (p, snd s)
    else p <- mv (len l2) (snd s) 1 ;; Ok (fst s, p).
  (** 131-147, 172-176 *)
  Definition ir_prev (s : Z * Z) : res (Z * Z) :=
    if negb (fst s =? pos) || (snd s =? 0) then p <- mv (len l1) (fst s) (-1) ;; Ok (p, snd s)
    else p <- mv (len l2) (snd s) (-1) ;; Ok (fst s, p).
  (** 198-204 *)
  Definition ir_eq (s t : Z * Z) : bool := (fst s =? fst t) && (snd s =? snd t).
  (** 220-229; >, <=, >= (234-262) are made from it *)
  Definition ir_lt (s t : Z * Z) : bool :=
    if ir_in_base s && ir_in_base t then fst s <? fst t
    else if negb (ir_in_base s) && negb (ir_in_base t) then snd s <? snd t
    else ir_in_base s.
  (** 267-277: lhs - rhs *)
  Definition ir_diff (s t : Z * Z) : res Z := lplus pmin pmax (fst s - fst t) (snd s - snd t).

  (** make_insert_range_iterator(begin1, pos, begin2, begin2, end2) and
      make_insert_range_iterator(end1, pos, end2, begin2, end2): 290-294 *)
  Definition ir_begin : Z * Z := (0, 0).
  Definition ir_end : Z * Z := (len l1, len l2).
  Definition inserted (k : nat) : res (list A) :=
    walk k (fun s => ir_eq s ir_end) ir_next ir_deref ir_begin.
  Definition inserted_back (k : nat) : res (list A) :=
    walk_back k (fun s => ir_eq s ir_begin) ir_prev ir_deref ir_end.
End InsertRange.

(** ** step_iterator  (sprout/iterator/step_iterator.hpp 48-53) *)
Record step : Type := Step { st_cur : Z; st_last : Z; st_wid : Z; st_back : Z; st_is_last : bool }.

Section Steps.
  Context {A : Type}.
  Variable l : list A.

  (** 38-40, 68-71 *)
  Definition st_new (it wid last : Z) : res step :=
    back <- mv (len l) it (Z.quot (last - it - 1) wid * wid) ;;
    Ok (Step it last wid back (it =? last)).
  (** 41-46 *)
  Definition st_dist (s : step) (n : Z) : Z :=
    if 0 <=? n then Z.min (st_back s - st_cur s) (n * st_wid s)
    else if st_is_last s then 0
    else Z.max (- (st_back s - st_cur s)) (n * st_wid s).
  (** 55-58, 131-136, 150-155 *)
  Definition st_plus (s : step) (n : Z) : res step :=
    p <- mv (len l) (st_cur s) (st_dist s n) ;;
    Ok (Step p (st_last s) (st_wid s) (st_back s) (st_dist s n =? 0)).
  Definition st_next (s : step) : res step := st_plus s 1.
  Definition st_prev (s : step) : res step := st_plus s (-1).
  (** 101-107 *)
  Definition st_inc (s : step) : res step :=
    let s := Step (st_cur s) (st_last s) (st_wid s) (st_back s)
      (if st_cur s =? st_back s then true else st_is_last s) in
    p <- mv (len l) (st_cur s) (st_dist s 1) ;;
    Ok (Step p (st_last s) (st_wid s) (st_back s) (st_is_last s)).
  (** 116-122 *)
  Definition st_dec (s : step) : res step :=
    p <- mv (len l) (st_cur s) (st_dist s (-1)) ;;
    Ok (Step p (st_last s) (st_wid s) (st_back s)
      (if negb (p =? st_back s) then false else st_is_last s)).
  (** 95-97 *)
  Definition st_deref (s : step) : res A := get l (st_cur s).
  (** 147-149 *)
  Definition st_sub (s : step) (n : Z) : res A := p <- mv (len l) (st_cur s) (n * st_wid s) ;; get l p.
  (** 175-178 *)
  Definition st_eq (s t : step) : bool :=
    (st_cur s =? st_cur t) && Bool.eqb (st_is_last s) (st_is_last t).
  (** 205-208: lhs - rhs *)
  Definition st_diff (s t : step) : Z :=
    Z.quot (st_cur s - st_cur t) (st_wid s) + (if st_is_last s then 1 else 0) - (if st_is_last t then 1 else 0).

  (** sprout/range/adaptor/steps.hpp 52-63, 118-128: begin and end of
      [range | steps(wid, init)] *)
  Definition st_begin (wid init : Z) : res step :=
    p <- mv (len l) 0 (Z.min init (len l)) ;; st_new p wid (len l).
  Definition st_end (wid : Z) : res step := st_new (len l) wid (len l).
  Definition steps (k : nat) (wid init : Z) : res (list A) :=
    b <- st_begin wid init ;; e <- st_end wid ;;
    walk k (fun s => st_eq s e) st_inc st_deref b.
  (** the same loops ended by is_end() (92-94) *)
  Definition steps_until_end (k : nat) (wid init : Z) : res (list A) :=
    b <- st_begin wid init ;; walk k st_is_last st_inc st_deref b.
  Definition steps_next_until_end (k : nat) (wid init : Z) : res (list A) :=
    b <- st_begin wid init ;; walk k st_is_last st_next st_deref b.
End Steps.

(** ** taken, dropped, taken_end, dropped_end, window, offset
    (sprout/range/adaptor/*.hpp, the operator| of each): first and last position of the
    adapted range *)
Section Slices.
  Context {A : Type}.
  Variable l : list A.

  (** taken.hpp 63-80 *)
  Definition taken (n : Z) : res (Z * Z) :=
    e <- mv (len l) 0 (Z.min n (len l)) ;; Ok (0, e).
  (** dropped.hpp 63-80 *)
  Definition dropped (n : Z) : res (Z * Z) :=
    b <- mv (len l) 0 (Z.min n (len l)) ;; Ok (b, len l).
  (** taken_end.hpp 63-80 *)
  Definition taken_end (n : Z) : res (Z * Z) :=
    b <- mv (len l) (len l) (Z.max n (- len l)) ;; Ok (b, len l).
  (** dropped_end.hpp 63-80 *)
  Definition dropped_end (n : Z) : res (Z * Z) :=
    e <- mv (len l) (len l) (Z.max n (- len l)) ;; Ok (0, e).
  (** window.hpp 87-107 *)
  Definition window (to_first to_last : Z) : res (Z * Z) :=
    b <- mv (len l) 0 (Z.min to_first (len l)) ;;
    e <- mv (len l) 0 (Z.min to_last (len l)) ;; Ok (b, e).
  (** offset.hpp 87-110 *)
  Definition offset (from_begin from_end : Z) : res (Z * Z) :=
    b <- mv (len l) 0 (Z.min from_begin (len l)) ;;
    e <- mv (len l) (len l) (Z.max from_end (Z.min (from_begin - len l) 0)) ;; Ok (b, e).
  (** [for (it = first; it != last; ++it) out = out + *it] over an adapted range *)
  Definition elements (k : nat) (r : res (Z * Z)) : res (list A) :=
    r <- r ;; walk k (fun p => p =? snd r) (fun p => mv (len l) p 1) (get l) (fst r).
End Slices.

(** ** filter_iterator  (sprout/iterator/filter_iterator.hpp); the state is [current];
    [c] is the category of the base iterators, [d] the call depth *)
Section Filter.
  Context {A : Type}.
  Variables (c : bool) (d : nat) (l : list A) (last : nat) (p : A -> bool).

  (** 53-55, 84-88: the constructor *)
  Definition fl_new (it : nat) : res nat := find_if c d l it last p.
  (** 66-68, 117-127, 139-141 *)
  Definition fl_next (s : nat) : res nat := q <- nxt l s ;; find_if c d l q last p.
  (** 56-59: recursive; the loop 69-73 of operator-- is the same with turns for calls *)
  Fixpoint find_prev (d : nat) (q : nat) : res nat :=
    match d with
    | O => Fuel
    | S d' => x <- rd l q ;; if p x then Ok q else q' <- prv q ;; find_prev d' q'
    end.
  (** 128-138, 142-144 *)
  Definition fl_prev (s : nat) : res nat := q <- prv s ;; find_prev d q.

  (** sprout/range/adaptor/filtered.hpp 50-55 *)
  Definition filtered (k : nat) (first : nat) : res (list A) :=
    b <- fl_new first ;; e <- fl_new last ;; walk k (fun s => (s =? e)%nat) fl_next (rd l) b.
  Definition filtered_back (k : nat) (first : nat) : res (list A) :=
    b <- fl_new first ;; e <- fl_new last ;; walk_back k (fun s => (s =? b)%nat) fl_prev (rd l) e.
End Filter.

(** sprout/iterator/remove_if_iterator.hpp 18-44, sprout/range/adaptor/removed_if.hpp *)
Definition removed_if {A} (c : bool) (d : nat) (l : list A) (last : nat) (p : A -> bool) (k first : nat) : res (list A) :=
  filtered c d l last (fun x => negb (p x)) k first.

(** ** adjacent_filter_iterator  (sprout/iterator/adjacent_filter_iterator.hpp) *)
Section AdjacentFilter.
  Context {A : Type}.
  Variables (c : bool) (d : nat) (l : list A) (last : nat) (p : A -> A -> bool).

  (** 52-54, 78-82: the constructor *)
  Definition af_new (it : nat) : res nat := adjacent_find c d l it last p.
  (** 55-58, 65-67, 111-128 *)
  Definition af_next (s : nat) : res nat :=
    found <- adjacent_find c d l s last p ;;
    if (found =? last)%nat then Ok last else nxt l found.
  (** sprout/range/adaptor/adjacent_filtered.hpp; as filtered.hpp 50-55 *)
  Definition adjacent_filtered (k : nat) (first : nat) : res (list A) :=
    b <- af_new first ;; e <- af_new last ;; walk k (fun s => (s =? e)%nat) af_next (rd l) b.
End AdjacentFilter.

(** sprout/iterator/unique_iterator.hpp 19-36, sprout/range/adaptor/uniqued.hpp 52-57 *)
Definition uniqued {A} (c : bool) (d : nat) (l : list A) (last : nat) (eq : A -> A -> bool) (k first : nat) : res (list A) :=
  adjacent_filtered c d l last (fun x y => negb (eq x y)) k first.

(** ** while_iterator  (sprout/iterator/while_iterator.hpp) *)
Section While.
  Context {A : Type}.
  Variables (l : list A) (last : nat) (p : A -> bool).

  (** 55-59, 90-94: the constructor *)
  Definition wh_find (q : nat) : res nat :=
    if (q =? last)%nat then Ok q else x <- rd l q ;; Ok (if p x then q else last).
  Definition wh_new (it : nat) : res nat := wh_find it.
  (** 145-147: next() *)
  Definition wh_next (s : nat) : res nat := q <- nxt l s ;; wh_find q.
  (** 70-74, 123-127: operator++ *)
  Definition wh_inc (s : nat) : res nat :=
    q <- nxt l s ;; x <- rd l q ;; Ok (if p x then q else last).
  (** 60-63, 75-79, 134-144, 148-150 *)
  Definition wh_prev (d : nat) (s : nat) : res nat := q <- prv s ;; find_prev l p d q.

  (** the range [while_iterator(pred, first, last), while_iterator(pred, last, last)) *)
  Definition while_next (k : nat) (first : nat) : res (list A) :=
    b <- wh_new first ;; e <- wh_new last ;; walk k (fun s => (s =? e)%nat) wh_next (rd l) b.
  Definition while_inc (k : nat) (first : nat) : res (list A) :=
    b <- wh_new first ;; e <- wh_new last ;; walk k (fun s => (s =? e)%nat) wh_inc (rd l) b.
End While.

(** ** next, prev, advance, distance of iterators without random access.  The iterator
    type is any [S] with its own ++ ([nx]), -- ([pv]) and ==. *)
Section Moves.
  Context {S : Type}.
  Variables nx pv : S -> res S.
  Variable eqb : S -> S -> bool.

  (** sprout/iterator/next.hpp 66-74 next_impl_2; prev.hpp 64-72 prev_impl_1 is the same
      with prev; [op] is the single move *)
  Fixpoint halve (op : S -> res S) (d : nat) (it : S) (n : Z) : res S :=
    match d with
    | O => Fuel
    | Datatypes.S d' =>
        if n =? 1 then op it
        else t <- halve op d' it (Z.quot n 2) ;; halve op d' t (n - Z.quot n 2)
    end.
  (** next.hpp 56-64 next_impl_2_neg; prev.hpp 54-62 prev_impl_1_neg *)
  Fixpoint halve_neg (op : S -> res S) (d : nat) (it : S) (n : Z) : res S :=
    match d with
    | O => Fuel
    | Datatypes.S d' =>
        if n =? -1 then op it
        else t <- halve_neg op d' it (Z.quot n 2) ;; halve_neg op d' t (n - Z.quot n 2)
    end.
  (** next.hpp 77-87: bidirectional iterators *)
  Definition next_n (d : nat) (it : S) (n : Z) : res S :=
    if n =? 0 then Ok it else if 0 <? n then halve nx d it n else halve_neg pv d it n.
  (** prev.hpp 75-88 *)
  Definition prev_n (d : nat) (it : S) (n : Z) : res S :=
    if n =? 0 then Ok it else if 0 <? n then halve pv d it n else halve_neg nx d it n.

  (** sprout/iterator/advance.hpp 26-38: bidirectional iterators; [k] turns *)
  Fixpoint up (k : nat) (it : S) (n : Z) : res S :=
    match k with
    | O => Fuel
    | Datatypes.S k' => if 0 <? n then t <- nx it ;; up k' t (n - 1) else Ok it
    end.
  Fixpoint down (k : nat) (it : S) (n : Z) : res S :=
    match k with
    | O => Fuel
    | Datatypes.S k' => if n <? 0 then t <- pv it ;; down k' t (n + 1) else Ok it
    end.
  Definition advance (k : nat) (it : S) (n : Z) : res S :=
    if 0 <? n then up k it n else down k it n.

  (** sprout/iterator/distance.hpp 56-101: literal iterators *)
  Definition distance (d : nat) (first last : S) : res Z :=
    s <- dbl (stop (fun s : S * Z => eqb (fst s) last))
             (fun s : S * Z => t <- nx (fst s) ;; Ok (t, snd s + 1))
             d (first, 0) 1 ;;
    Ok (snd s).
  (** 31-39: the other ones *)
  Fixpoint cxx14_distance (k : nat) (first last : S) (n : Z) : res Z :=
    match k with
    | O => Fuel
    | Datatypes.S k' =>
        if eqb first last then Ok n else t <- nx first ;; cxx14_distance k' t last (n + 1)
    end.
End Moves.
