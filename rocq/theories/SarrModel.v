(** Models of sprout::sub_array and of the operations that return a new container (operation/fixed
    and operation/fit).  Nothing is proved in this file.

    A sub_array that holds its container by value is modelled; one that refers to a container is the
    same with the elements of that container in [sbase].  (push_back, pop_back, push_front,
    pop_front, and the const overloads of window and offset, do not compile for the latter: they
    index or copy the pointer it holds.)  The index type is not bounded.  The elements are in an
    array, whose iterators are positions. *)
From Coq Require Import List Bool Arith ZArith.
From Verif Require Import Base SearchModel OrderModel FixModel BstrModel ValModel.
Import ListNotations.
Open Scope Z_scope.

(** sub_array_impl: array_, to_first_ and to_last_ (sub_array/sub_array.hpp 144-146).  A plain array
    is [Sub l 0 (length l)]. *)
Record sub (A : Type) : Type := Sub { sbase : list A; sfirst : Z; slast : Z }.
Arguments Sub {A} _ _ _.
Arguments sbase {A} _.
Arguments sfirst {A} _.
Arguments slast {A} _.

Section Sarr.
  Context {A : Type}.

  (** static_size *)
  Definition len (l : list A) : Z := Z.of_nat (length l).
  (** *next(begin(internal), i) *)
  Definition zat (l : list A) (i : Z) : res A := if i <? 0 then UB else rd l (Z.to_nat i).
  Definition zset (l : list A) (i : Z) (x : A) : res (list A) := if i <? 0 then UB else wr l (Z.to_nat i) x.
  (** next(begin(internal), i) *)
  Definition zpos (l : list A) (i : Z) : res Z := if (0 <=? i) && (i <=? len l) then Ok i else UB.

  Definition whole (l : list A) : sub A := Sub l 0 (len l).

  (** ** sub_array/sub_array.hpp *)

  (** 250-258: two iterators into [arr] *)
  Definition s_ctor_it (arr : list A) (first last : Z) : sub A := Sub arr first last.
  (** 259-267 *)
  Definition s_ctor (arr : list A) (to_first to_last : Z) : sub A := Sub arr to_first to_last.
  (** 268-276 *)
  Definition s_ctor_sub_it (other : sub A) (first last : Z) : sub A := Sub (sbase other) first last.
  (** 277-285 *)
  Definition s_ctor_sub (other : sub A) (to_first to_last : Z) : sub A :=
    Sub (sbase other) (sfirst other + to_first) (sfirst other + to_last).

  (** 313-330 *)
  Definition s_begin (s : sub A) : res Z := zpos (sbase s) (sfirst s).
  Definition s_end (s : sub A) : res Z := zpos (sbase s) (slast s).
  (** 332-334; the conversion to size_type of a negative difference is not modelled *)
  Definition s_size (s : sub A) : Z := slast s - sfirst s.
  (** 338-340 *)
  Definition s_empty (s : sub A) : bool := sfirst s =? slast s.
  (** 342-347 *)
  Definition s_index (s : sub A) (i : Z) : res A := zat (sbase s) (sfirst s + i).
  (** 348-357 *)
  Definition s_at (s : sub A) (i : Z) : res (thrown A) :=
    if i <? s_size s then x <- zat (sbase s) (sfirst s + i) ;; Ok (Returns x) else Ok (Throws Out_of_range_error).
  (** 358-369 *)
  Definition s_front (s : sub A) : res A := zat (sbase s) (sfirst s).
  Definition s_back (s : sub A) : res A := zat (sbase s) (slast s - 1).
  (** algorithm/cxx14/fill_n.hpp 24-29 *)
  Fixpoint fill_from (n : nat) (l : list A) (i : Z) (value : A) : res (list A) :=
    match n with
    | O => Ok l
    | S n => l <- zset l i value ;; fill_from n l (i + 1) value
    end.
  (** 301-303, 384-386; a negative size would be a large one *)
  Definition s_fill (s : sub A) (value : A) : res (sub A) :=
    b <- s_begin s ;;
    if s_size s <? 0 then UB else
    l <- fill_from (Z.to_nat (s_size s)) (sbase s) b value ;; Ok (Sub l (sfirst s) (slast s)).
  (** 304-311 *)
  Definition s_swap (s t : sub A) : sub A * sub A :=
    (Sub (sbase t) (sfirst t) (slast t), Sub (sbase s) (sfirst s) (slast s)).
  (** 405-416 *)
  Definition s_from_begin (s : sub A) : Z := sfirst s.
  Definition s_from_end (s : sub A) : Z := slast s - len (sbase s).
  (** 418-422: size() is called after to_first_ has been set *)
  Definition s_window_1_mut (s : sub A) (to_first : Z) : sub A :=
    let s := Sub (sbase s) to_first (slast s) in Sub (sbase s) (sfirst s) (s_size s).
  (** 423-427 *)
  Definition s_window_mut (s : sub A) (to_first to_last : Z) : sub A := Sub (sbase s) to_first to_last.
  (** 428-439 *)
  Definition s_window_1 (s : sub A) (to_first : Z) : sub A := s_ctor (sbase s) to_first (s_size s).
  Definition s_window (s : sub A) (to_first to_last : Z) : sub A := s_ctor (sbase s) to_first to_last.
  (** 441-445 *)
  Definition s_offset_mut (s : sub A) (from_begin from_end : Z) : sub A :=
    Sub (sbase s) (sfirst s + from_begin) (slast s + from_end).
  (** 446-451 *)
  Definition s_offset (s : sub A) (from_begin from_end : Z) : sub A :=
    s_ctor (sbase s) (sfirst s + from_begin) (slast s + from_end).
  (** 453-464: the position of the iterator *)
  Definition s_nth (s : sub A) (i : Z) : res (thrown Z) :=
    if i <? s_size s then p <- s_begin s ;; q <- zpos (sbase s) (p + i) ;; Ok (Returns q)
    else Ok (Throws Out_of_range_error).
  (** 465-470 *)
  Definition s_index_of (s : sub A) (p : Z) : res Z := b <- s_begin s ;; Ok (p - b).
  (** 472-479 *)
  Definition s_push_back (s : sub A) (x : A) : res (sub A) :=
    l <- zset (sbase s) (slast s) x ;; Ok (Sub l (sfirst s) (slast s + 1)).
  (** 480-483; [z] is value_type() *)
  Definition s_pop_back (z : A) (s : sub A) : res (sub A) :=
    l <- zset (sbase s) (slast s - 1) z ;; Ok (Sub l (sfirst s) (slast s - 1)).
  (** 484-486 *)
  Definition s_drop_back (s : sub A) : sub A := Sub (sbase s) (sfirst s) (slast s - 1).
  (** 487-494 *)
  Definition s_push_front (s : sub A) (x : A) : res (sub A) :=
    l <- zset (sbase s) (sfirst s - 1) x ;; Ok (Sub l (sfirst s - 1) (slast s)).
  (** 495-498 *)
  Definition s_pop_front (z : A) (s : sub A) : res (sub A) :=
    l <- zset (sbase s) (sfirst s) z ;; Ok (Sub l (sfirst s + 1) (slast s)).
  (** 499-501 *)
  Definition s_drop_front (s : sub A) : sub A := Sub (sbase s) (sfirst s + 1) (slast s).

  (** ** sub_array/sub.hpp, sub_window.hpp, sub_offset.hpp

      [_a]: of a container that is not a sub_array; [_s]: of a sub_array.  The functions csub... and
      ..._copy differ from each other only in the type of the result. *)

  (** sub_window.hpp 24-59, 85-101, 135-151 *)
  Definition window_a (arr : list A) (to_first to_last : Z) : sub A := s_ctor arr to_first to_last.
  Definition window_1_a (arr : list A) (to_first : Z) : sub A := s_ctor arr to_first (len arr).
  (** 62-78 *)
  Definition window_s (s : sub A) (to_first to_last : Z) : sub A := s_ctor_sub s to_first to_last.
  Definition window_1_s (s : sub A) (to_first : Z) : sub A := s_ctor_sub s to_first (s_size s).
  (** 104-128, 154-178 *)
  Definition cwindow_s (s : sub A) (to_first to_last : Z) : sub A :=
    s_ctor (sbase s) (sfirst s + to_first) (sfirst s + to_last).
  Definition cwindow_1_s (s : sub A) (to_first : Z) : sub A :=
    s_ctor (sbase s) (sfirst s + to_first) (sfirst s + s_size s).
  (** sub_offset.hpp 24-41, 58-65, 86-93 *)
  Definition offset_a (arr : list A) (from_begin from_end : Z) : sub A := s_ctor arr from_begin (len arr + from_end).
  (** 44-51 *)
  Definition offset_s (s : sub A) (from_begin from_end : Z) : sub A := s_ctor_sub s from_begin (s_size s + from_end).
  (** 68-79, 96-107 *)
  Definition coffset_s (s : sub A) (from_begin from_end : Z) : sub A :=
    s_ctor (sbase s) (sfirst s + from_begin) (slast s + from_end).
  (** sub.hpp 25-41, 64-80, 151-167, 238-254: iterators *)
  Definition sub_it_a (arr : list A) (first last : Z) : sub A := s_ctor_it arr first last.
  Definition sub_it_1_a (arr : list A) (first : Z) : sub A := s_ctor_it arr first (len arr).
  (** 103-119 *)
  Definition sub_it_s (s : sub A) (first last : Z) : sub A := s_ctor_sub_it s first last.
  Definition sub_it_1_s (s : sub A) (first : Z) : res (sub A) := e <- s_end s ;; Ok (s_ctor_sub_it s first e).
  (** 190-206, 277-293 *)
  Definition csub_it_s (s : sub A) (first last : Z) : sub A := s_ctor_it (sbase s) first last.
  Definition csub_it_1_s (s : sub A) (first : Z) : res (sub A) := e <- s_end s ;; Ok (s_ctor_it (sbase s) first e).

  (** ** sub_array/comparison.hpp *)
  Section Compare.
    Variables (eqb lt : A -> A -> bool).
    (** 28-30: the overload of equal without the end of the second range *)
    Definition s_eq (d : nat) (s t : sub A) : res bool :=
      b1 <- s_begin s ;; e1 <- s_end s ;; b2 <- s_begin t ;;
      equal eqb true d (sbase s) (sbase t) (Z.to_nat b1) (Z.to_nat e1) (Z.to_nat b2).
    (** 33-35 *)
    Definition s_ne (d : nat) (s t : sub A) : res bool := b <- s_eq d s t ;; Ok (negb b).
    (** 38-43 *)
    Definition s_lt (d : nat) (s t : sub A) : res bool :=
      b1 <- s_begin s ;; e1 <- s_end s ;; b2 <- s_begin t ;; e2 <- s_end t ;;
      lexicographical_compare lt lt true d (sbase s) (sbase t)
        (Z.to_nat b1) (Z.to_nat e1) (Z.to_nat b2) (Z.to_nat e2).
    (** 46-58 *)
    Definition s_gt (d : nat) (s t : sub A) : res bool := s_lt d t s.
    Definition s_le (d : nat) (s t : sub A) : res bool := b <- s_lt d t s ;; Ok (negb b).
    Definition s_ge (d : nat) (s t : sub A) : res bool := b <- s_lt d s t ;; Ok (negb b).
  End Compare.

  (** ** operation/fixed

      [isub]: the container is a sub_array, otherwise it is an array, for which size and end are
      fixed.  [z]: value_type().  A pack expansion over container_indexes<Result> is [expand] (see
      FixModel.v); the first argument of the pack is the index. *)
  Variable z : A.

  (** remake<Result>(cont, size, args...): container/container_construct_traits.hpp 52-54,
      sub_array/container.hpp 36-48, 67-74.  A size below 0 is UB here. *)
  Definition o_remake (isub : bool) (c : sub A) (size : Z) (args : list A) : res (sub A) :=
    if isub then
      if size <? 0 then UB
      else f <- zpos args (sfirst c) ;; l <- zpos args (sfirst c + size) ;; Ok (Sub args f l)
    else Ok (whole args).
  (** make<Result>(args...): container_construct_traits.hpp 33-36, sub_array/container.hpp 31-34, 60-65 *)
  Definition o_make (args : list A) : sub A := whole args.
  (** (f(Indexes))... for a result of static size [n] *)
  Definition pack (n : Z) (f : Z -> res A) : res (list A) := expand (fun i => f (Z.of_nat i)) 0 (Z.to_nat n).
  (** distance(internal_begin(cont), next(begin(cont), pos)) *)
  Definition o_pos (c : sub A) (pos : Z) : res Z := b <- s_begin c ;; zpos (sbase c) (b + pos).

  (** fixed/append.hpp 35-57 *)
  Definition append_impl (isub : bool) (c : sub A) (pos size : Z) (input : sub A) : res (sub A) :=
    args <- pack (len (sbase c) + len (sbase input))
      (fun i => if i <? len (sbase c) + size then
                  if i <? pos then zat (sbase c) i
                  else if i <? pos + size then zat (sbase input) (sfirst input + (i - pos))
                  else zat (sbase c) (i - size)
                else Ok z) ;;
    o_remake isub c (s_size c + s_size input) args.
  (** 62-76: pos is an iterator *)
  Definition o_append_it (isub : bool) (c : sub A) (pos : Z) (input : sub A) : res (sub A) :=
    append_impl isub c pos (s_size input) input.
  (** 77-91: pos is a number *)
  Definition o_append (isub : bool) (c : sub A) (pos : Z) (input : sub A) : res (sub A) :=
    p <- o_pos c pos ;; append_impl isub c p (s_size input) input.
  (** fixed/append_back.hpp 36-44, append_front.hpp 36-44 *)
  Definition o_append_back (isub : bool) (c input : sub A) : res (sub A) :=
    p <- s_end c ;; append_impl isub c p (s_size input) input.
  Definition o_append_front (isub : bool) (c input : sub A) : res (sub A) :=
    p <- s_begin c ;; append_impl isub c p (s_size input) input.

  (** detail/param_at.hpp 17-33; a pack has at least one element *)
  Fixpoint param_at (n : Z) (v : A) (values : list A) : A :=
    match values with
    | [] => v
    | w :: values => if n =? 0 then v else param_at (n - 1) w values
    end.

  (** fixed/insert.hpp 37-57 *)
  Definition insert_impl (isub : bool) (c : sub A) (pos : Z) (v : A) (values : list A) : res (sub A) :=
    args <- pack (len (sbase c) + 1 + len values)
      (fun i => if i <? len (sbase c) + 1 + len values then
                  if i <? pos then zat (sbase c) i
                  else if i <? pos + 1 + len values then Ok (param_at (i - pos) v values)
                  else zat (sbase c) (i - (1 + len values))
                else Ok z) ;;
    o_remake isub c (s_size c + 1 + len values) args.
  (** 62-91; push_back.hpp 36-44, push_front.hpp 36-44 *)
  Definition o_insert_it (isub : bool) (c : sub A) (pos : Z) (v : A) (values : list A) : res (sub A) :=
    insert_impl isub c pos v values.
  Definition o_insert (isub : bool) (c : sub A) (pos : Z) (v : A) (values : list A) : res (sub A) :=
    p <- o_pos c pos ;; insert_impl isub c p v values.
  Definition o_push_back (isub : bool) (c : sub A) (v : A) (values : list A) : res (sub A) :=
    p <- s_end c ;; insert_impl isub c p v values.
  Definition o_push_front (isub : bool) (c : sub A) (v : A) (values : list A) : res (sub A) :=
    p <- s_begin c ;; insert_impl isub c p v values.

  (** fixed/insert_n.hpp 39-60 *)
  Definition insert_n_impl (N : Z) (isub : bool) (c : sub A) (pos : Z) (v : A) (values : list A) : res (sub A) :=
    args <- pack (len (sbase c) + (1 + len values) * N)
      (fun i => if i <? len (sbase c) + (1 + len values) * N then
                  if i <? pos then zat (sbase c) i
                  else if i <? pos + (1 + len values) * N
                    then Ok (param_at ((i - pos) mod (1 + len values)) v values)
                  else zat (sbase c) (i - (1 + len values) * N)
                else Ok z) ;;
    o_remake isub c (s_size c + (1 + len values) * N) args.
  (** 65-97; push_back_n.hpp 36-44, push_front_n.hpp 36-44 *)
  Definition o_insert_n_it (N : Z) (isub : bool) (c : sub A) (pos : Z) (v : A) (values : list A) : res (sub A) :=
    insert_n_impl N isub c pos v values.
  Definition o_insert_n (N : Z) (isub : bool) (c : sub A) (pos : Z) (v : A) (values : list A) : res (sub A) :=
    p <- o_pos c pos ;; insert_n_impl N isub c p v values.
  Definition o_push_back_n (N : Z) (isub : bool) (c : sub A) (v : A) (values : list A) : res (sub A) :=
    p <- s_end c ;; insert_n_impl N isub c p v values.
  Definition o_push_front_n (N : Z) (isub : bool) (c : sub A) (v : A) (values : list A) : res (sub A) :=
    p <- s_begin c ;; insert_n_impl N isub c p v values.

  (** fixed/erase.hpp 24-33 (the assertion; a failed one is UB here), 37-55 *)
  Definition erase_impl (isub : bool) (c : sub A) (pos : Z) : res (sub A) :=
    if len (sbase c) <? 1 then UB else
    args <- pack (len (sbase c) - 1)
      (fun i => if i <? len (sbase c) - 1 then
                  if i <? pos then zat (sbase c) i else zat (sbase c) (i + 1)
                else Ok z) ;;
    o_remake isub c (s_size c - 1) args.
  (** 60-80; pop_back.hpp 36-42, pop_front.hpp 36-42 *)
  Definition o_erase_it (isub : bool) (c : sub A) (pos : Z) : res (sub A) := erase_impl isub c pos.
  Definition o_erase (isub : bool) (c : sub A) (pos : Z) : res (sub A) := p <- o_pos c pos ;; erase_impl isub c p.
  Definition o_pop_back (isub : bool) (c : sub A) : res (sub A) := p <- s_end c ;; erase_impl isub c (p - 1).
  Definition o_pop_front (isub : bool) (c : sub A) : res (sub A) := p <- s_begin c ;; erase_impl isub c p.

  (** fixed/erase_n.hpp 25-34, 38-56 *)
  Definition erase_n_impl (N : Z) (isub : bool) (c : sub A) (pos : Z) : res (sub A) :=
    if len (sbase c) <? N then UB else
    args <- pack (len (sbase c) - N)
      (fun i => if i <? len (sbase c) - N then
                  if i <? pos then zat (sbase c) i else zat (sbase c) (i + N)
                else Ok z) ;;
    o_remake isub c (s_size c - N) args.
  (** 61-78; pop_back_n.hpp 36-42, pop_front_n.hpp 36-42 *)
  Definition o_erase_n_it (N : Z) (isub : bool) (c : sub A) (pos : Z) : res (sub A) := erase_n_impl N isub c pos.
  Definition o_erase_n (N : Z) (isub : bool) (c : sub A) (pos : Z) : res (sub A) :=
    p <- o_pos c pos ;; erase_n_impl N isub c p.
  Definition o_pop_back_n (N : Z) (isub : bool) (c : sub A) : res (sub A) :=
    p <- s_end c ;; erase_n_impl N isub c (p - N).
  Definition o_pop_front_n (N : Z) (isub : bool) (c : sub A) : res (sub A) :=
    p <- s_begin c ;; erase_n_impl N isub c p.

  (** fixed/realign.hpp 32-45, 62-75; resize.hpp 36-49, 66-79; the overloads without [v] have
      value_type() for it.  [n]: the static size of the result. *)
  Definition resize_impl (n : Z) (c : sub A) (v : A) : res (sub A) :=
    args <- pack n (fun i => if i <? s_size c then p <- s_begin c ;; zat (sbase c) (p + i) else Ok v) ;;
    Ok (o_make args).
  (** realign.hpp 50-59, 80-88; realign_to.hpp 35-57; resize.hpp 54-63, 84-92 *)
  Definition o_realign (c : sub A) (v : A) : res (sub A) := resize_impl (len (sbase c)) c v.
  Definition o_realign_to (n : Z) (c : sub A) (v : A) : res (sub A) := resize_impl n c v.
  Definition o_resize (n : Z) (c : sub A) (v : A) : res (sub A) := resize_impl n c v.
  (** fixed/resize_backward.hpp 33-48, 53-66, 69-83, 88-100 *)
  Definition o_resize_backward (n : Z) (c : sub A) (v : A) : res (sub A) :=
    let offset := n - s_size c in
    args <- pack n (fun i => if (offset <=? i) && (i <? offset + s_size c)
                             then p <- s_begin c ;; zat (sbase c) (p + (i - offset)) else Ok v) ;;
    Ok (o_make args).

  (** fixed/set.hpp 32-47, 52-71 *)
  Definition set_impl (isub : bool) (c : sub A) (pos : Z) (v : A) : res (sub A) :=
    args <- pack (len (sbase c)) (fun i => if negb (i =? pos) then zat (sbase c) i else Ok v) ;;
    o_remake isub c (s_size c) args.
  Definition o_set_it (isub : bool) (c : sub A) (pos : Z) (v : A) : res (sub A) := set_impl isub c pos v.
  Definition o_set (isub : bool) (c : sub A) (pos : Z) (v : A) : res (sub A) :=
    p <- o_pos c pos ;; set_impl isub c p v.

  (** ** operation/fit *)

  (** sub_copy(get_internal(r), to_first, to_last): sub_array/sub.hpp 257-264, sub_window.hpp 135-142 *)
  Definition fitted (r : res (sub A)) (to_first to_last : res Z) : res (sub A) :=
    r <- r ;; f <- to_first ;; l <- to_last ;; Ok (s_ctor (sbase r) f l).
  (** internal_end_offset(cont) + n *)
  Definition end_plus (c : sub A) (n : Z) : res Z := e <- s_end c ;; Ok (e + n).

  (** fit/append.hpp 40-63, append_back.hpp 39-45, append_front.hpp 39-45 *)
  Definition fit_append_it isub c pos input := fitted (o_append_it isub c pos input) (s_begin c) (end_plus c (s_size input)).
  Definition fit_append isub c pos input := fitted (o_append isub c pos input) (s_begin c) (end_plus c (s_size input)).
  Definition fit_append_back isub c input := fitted (o_append_back isub c input) (s_begin c) (end_plus c (s_size input)).
  Definition fit_append_front isub c input := fitted (o_append_front isub c input) (s_begin c) (end_plus c (s_size input)).
  (** fit/insert.hpp 41-64, push_back.hpp 40-46, push_front.hpp 40-46 *)
  Definition fit_insert_it isub c pos v values := fitted (o_insert_it isub c pos v values) (s_begin c) (end_plus c (1 + len values)).
  Definition fit_insert isub c pos v values := fitted (o_insert isub c pos v values) (s_begin c) (end_plus c (1 + len values)).
  Definition fit_push_back isub c v values := fitted (o_push_back isub c v values) (s_begin c) (end_plus c (1 + len values)).
  Definition fit_push_front isub c v values := fitted (o_push_front isub c v values) (s_begin c) (end_plus c (1 + len values)).
  (** fit/insert_n.hpp 41-64, push_back_n.hpp 40-46, push_front_n.hpp 40-46 *)
  Definition fit_insert_n_it N isub c pos v values :=
    fitted (o_insert_n_it N isub c pos v values) (s_begin c) (end_plus c ((1 + len values) * N)).
  Definition fit_insert_n N isub c pos v values :=
    fitted (o_insert_n N isub c pos v values) (s_begin c) (end_plus c ((1 + len values) * N)).
  Definition fit_push_back_n N isub c v values :=
    fitted (o_push_back_n N isub c v values) (s_begin c) (end_plus c ((1 + len values) * N)).
  Definition fit_push_front_n N isub c v values :=
    fitted (o_push_front_n N isub c v values) (s_begin c) (end_plus c ((1 + len values) * N)).
  (** fit/erase.hpp 41-56, pop_back.hpp 41-47, pop_front.hpp 41-47 *)
  Definition fit_erase_it isub c pos := fitted (o_erase_it isub c pos) (s_begin c) (end_plus c (-1)).
  Definition fit_erase isub c pos := fitted (o_erase isub c pos) (s_begin c) (end_plus c (-1)).
  Definition fit_pop_back isub c := fitted (o_pop_back isub c) (s_begin c) (end_plus c (-1)).
  Definition fit_pop_front isub c := fitted (o_pop_front isub c) (s_begin c) (end_plus c (-1)).
  (** fit/erase_n.hpp 41-56: - 1, whatever N *)
  Definition fit_erase_n_it N isub c pos := fitted (o_erase_n_it N isub c pos) (s_begin c) (end_plus c (-1)).
  Definition fit_erase_n N isub c pos := fitted (o_erase_n N isub c pos) (s_begin c) (end_plus c (-1)).
  (** fit/pop_back_n.hpp 41-47, pop_front_n.hpp 41-47 *)
  Definition fit_pop_back_n N isub c := fitted (o_pop_back_n N isub c) (s_begin c) (end_plus c (- N)).
  Definition fit_pop_front_n N isub c := fitted (o_pop_front_n N isub c) (s_begin c) (end_plus c (- N)).
  (** fit/realign.hpp 40-55, realign_to.hpp 40-55, resize.hpp 41-56, resize_backward.hpp 41-56 *)
  Definition fit_realign c v := fitted (o_realign c v) (Ok 0) (Ok (s_size c)).
  Definition fit_realign_to n c v := fitted (o_realign_to n c v) (Ok 0) (Ok (s_size c)).
  Definition fit_resize n c v := fitted (o_resize n c v) (Ok 0) (Ok n).
  Definition fit_resize_backward n c v := fitted (o_resize_backward n c v) (Ok 0) (Ok n).
  (** fit/set.hpp 41-56 *)
  Definition fit_set_it isub c pos v := fitted (o_set_it isub c pos v) (s_begin c) (s_end c).
  Definition fit_set isub c pos v := fitted (o_set isub c pos v) (s_begin c) (s_end c).
End Sarr.
