(** Models of the algorithms of sprout::fixed, which return a new container instead of
    modifying one.  Nothing is proved in this file. *)
From Coq Require Import List Arith Bool NArith.
From Verif Require Import Base SearchModel OrderModel.
Import ListNotations.

(** A fixed container: an array, or a sub_array of one.  [cbase]: the elements of the internal
    array, whose number is static_size; [coff]: internal_begin_offset; [csize]: size.  An
    array has offset 0 and size static_size.  (sprout/container/traits.hpp,
    sprout/sub_array/container.hpp 131-168; basic_string, which is a fixed container too, is
    not covered.) *)
Record cont (A : Type) : Type := Cont { cbase : list A; coff : nat; csize : nat }.
Arguments Cont {A} cbase coff csize.
Arguments cbase {A} c.
Arguments coff {A} c.
Arguments csize {A} c.

Definition static_size {A} (c : cont A) : nat := length (cbase c).

(** sprout/sub_array/container.hpp 33-47, 66-74: remake<Container>(cont, size, args...) keeps
    the offset; the number of arguments must be static_size (a compile-time matter, here [UB]) *)
Definition remake {A} (c : cont A) (size : nat) (args : list A) : res (cont A) :=
  if length args =? static_size c then Ok (Cont args (coff c) size) else UB.

(** An argument list f(Indexes)... over index_tuple<i, ..., i + n - 1> *)
Fixpoint expand {A} (f : nat -> res A) (i n : nat) : res (list A) :=
  match n with
  | 0 => Ok []
  | S n => x <- f i ;; l <- expand f (S i) n ;; Ok (x :: l)
  end.

(** remake<Result>(result, size(result), (f(Indexes))...) over container_indexes<Result> *)
Definition remake_indexes {A} (c : cont A) (f : nat -> res A) : res (cont A) :=
  args <- expand f 0 (static_size c) ;; remake c (csize c) args.

(** sprout/detail/container_complate.hpp 21-36: [n] elements are missing *)
Fixpoint container_complate_2 {A} (n : nat) (c : cont A) (args : list A) : res (cont A) :=
  match n with
  | 0 => remake c (csize c) args
  | S n => x <- rd (cbase c) (length args) ;; container_complate_2 n c (args ++ [x])
  end.

(** container_complate.hpp 37-66 *)
Fixpoint container_complate_1 {A} (c : cont A) (remain : nat) (args : list A) : res (cont A) :=
  if length args =? static_size c then remake c (csize c) args
  else
    match remain with
    | 0 => container_complate_2 (static_size c - length args) c args
    | S r => x <- rd (cbase c) r ;; container_complate_1 c r (x :: args)
    end.

(** container_complate.hpp 67-82 *)
Definition container_complate {A} (c : cont A) (args : list A) : res (cont A) :=
  if length args =? static_size c then remake c (csize c) args
  else container_complate_1 c (coff c) args.

(** sprout/detail/container_complate_backward.hpp 21-36: *prev(internal_end(result), sizeof...(Args) + 1) *)
Fixpoint container_complate_backward_2 {A} (n : nat) (c : cont A) (args : list A) : res (cont A) :=
  match n with
  | 0 => remake c (csize c) args
  | S n =>
      x <- rd (cbase c) (static_size c - (length args + 1)) ;;
      container_complate_backward_2 n c (x :: args)
  end.

(** container_complate_backward.hpp 37-66 *)
Fixpoint container_complate_backward_1 {A} (c : cont A) (remain : nat) (args : list A) : res (cont A) :=
  if length args =? static_size c then remake c (csize c) args
  else
    match remain with
    | 0 => container_complate_backward_2 (static_size c - length args) c args
    | S r => x <- rd (cbase c) (static_size c - remain) ;; container_complate_backward_1 c r (args ++ [x])
    end.

(** container_complate_backward.hpp 67-82; internal_end_offset_backward is the number of internal
    elements behind the end (sprout/container/internal_begin.hpp and siblings) *)
Definition container_complate_backward {A} (c : cont A) (args : list A) : res (cont A) :=
  if length args =? static_size c then remake c (csize c) args
  else container_complate_backward_1 c (static_size c - (coff c + csize c)) args.

(** The recursion shared by the versions for input iterators:
<<
    X_impl(state, result, size, args...) =
      static_size == sizeof...(Args) ? remake(result, size(result), args...)
      : GO(state) && sizeof...(Args) < size ? X_impl(state', result, size, args..., e)
                                              or X_impl(state', result, size, args...)
      : FIN(result, args...);
>>
    (e.g. copy_if.hpp 26-55).  [step s = None]: GO fails; [step s = Some (s', e)]: the next state
    and the argument appended, if any.  The template is written once here; each algorithm gives
    its own [step] with the lines it comes from. *)
Section Packing.
  Context {A S : Type}.
  Variable c : cont A.
  Variable step : S -> res (option (S * option A)).
  Variable fin : list A -> res (cont A).

  Fixpoint pack (d : nat) (s : S) (args : list A) : res (cont A) :=
    match d with
    | 0 => Fuel
    | Datatypes.S d =>
        if length args =? static_size c then remake c (csize c) args
        else if length args <? csize c then
          o <- step s ;;
          match o with
          | None => fin args
          | Some (s, Some x) => pack d s (args ++ [x])
          | Some (s, None) => pack d s args
          end
        else fin args
    end.
End Packing.

Section Fixed.
  Context {A : Type}.
  Notation cont := (cont A).

  (** The index test of the versions for random access iterators:
      Indexes >= offset && Indexes < offset + size && Indexes < offset + input_size ? f(Indexes - offset)
      : *next(internal_begin(result), Indexes) *)
  Definition remake_from (c : cont) (input_size : nat) (f : nat -> res A) : res cont :=
    remake_indexes c (fun i =>
      if (coff c <=? i) && (i <? coff c + csize c) && (i <? coff c + input_size)
      then f (i - coff c) else rd (cbase c) i).

  (** ** Copying *)

  (** sprout/algorithm/fixed/copy.hpp 29-46 and 63-91 *)
  Definition fx_copy (ra : bool) (d : nat) (xs : list A) (first last : nat) (c : cont) : res cont :=
    if ra then remake_from c (last - first) (fun i => rd xs (first + i))
    else pack c (fun first => if first =? last then Ok None
                              else x <- rd xs first ;; Ok (Some (S first, Some x)))
           (container_complate c) d first [].

  (** copy_n.hpp 29-66 *)
  Definition fx_copy_n (ra : bool) (d : nat) (xs : list A) (first n : nat) (c : cont) : res cont :=
    if ra then fx_copy true d xs first (first + n) c
    else pack c (fun '((first, n) : nat * nat) =>
                   if n =? 0 then Ok None
                   else x <- rd xs first ;; Ok (Some ((S first, n - 1), Some x)))
           (container_complate c) d (first, n) [].

  (** copy_if.hpp 26-64 *)
  Definition fx_copy_if (d : nat) (xs : list A) (first last : nat) (c : cont) (pred : A -> bool) : res cont :=
    pack c (fun first => if first =? last then Ok None
                         else x <- rd xs first ;;
                              Ok (Some (S first, if pred x then Some x else None)))
      (container_complate c) d first [].

  (** copy_until.hpp 30-77; find_if is the model of algorithm/find_if.hpp *)
  Definition fx_copy_until (ra : bool) (d : nat) (xs : list A) (first last : nat) (c : cont) (pred : A -> bool) : res cont :=
    if ra then e <- find_if true d xs first last pred ;; fx_copy true d xs first e c
    else pack c (fun first => if first =? last then Ok None
                              else x <- rd xs first ;;
                                   Ok (if negb (pred x) then Some (S first, Some x) else None))
           (container_complate c) d first [].

  (** copy_while.hpp 29-76 *)
  Definition fx_copy_while (ra : bool) (d : nat) (xs : list A) (first last : nat) (c : cont) (pred : A -> bool) : res cont :=
    if ra then e <- find_if_not true d xs first last pred ;; fx_copy true d xs first e c
    else pack c (fun first => if first =? last then Ok None
                              else x <- rd xs first ;;
                                   Ok (if pred x then Some (S first, Some x) else None))
           (container_complate c) d first [].

  (** copy_backward.hpp 62-90; arguments are prepended *)
  Fixpoint fx_copy_backward_impl (d : nat) (xs : list A) (first last : nat) (c : cont) (args : list A) : res cont :=
    match d with
    | 0 => Fuel
    | S d =>
        if length args =? static_size c then remake c (csize c) args
        else if negb (first =? last) && (length args <? csize c) then
          x <- rd xs (last - 1) ;; fx_copy_backward_impl d xs first (last - 1) c (x :: args)
        else container_complate_backward c args
    end.

  (** copy_backward.hpp 29-61 (offset is internal_end_offset) and 91-102 *)
  Definition fx_copy_backward (ra : bool) (d : nat) (xs : list A) (first last : nat) (c : cont) : res cont :=
    if ra then
      let offset := coff c + csize c in
      remake_indexes c (fun i =>
        if (i <? offset) && (offset <=? i + csize c) && (offset <=? i + (last - first))
        then rd xs (last - (offset - i)) else rd (cbase c) i)
    else fx_copy_backward_impl d xs first last c [].

  (** ** Filling *)

  (** fill.hpp 23-39 *)
  Definition fx_fill_impl (c : cont) (value : A) (size : nat) : res cont :=
    remake_indexes c (fun i =>
      if (coff c <=? i) && (i <? coff c + size) then Ok value else rd (cbase c) i).

  (** fill.hpp 41-53, fill_n.hpp 26-38 *)
  Definition fx_fill (c : cont) (value : A) : res cont := fx_fill_impl c value (csize c).
  Definition fx_fill_n (c : cont) (n : nat) (value : A) : res cont := fx_fill_impl c value n.

  (** generate.hpp 23-54; [next] is a generated value together with the next generator *)
  Fixpoint fx_generate_impl_1 {G} (d : nat) (c : cont) (gen : G -> A * G) (next : A * G) (size : nat)
      (args : list A) : res cont :=
    match d with
    | 0 => Fuel
    | S d =>
        if static_size c =? length args + 1 then remake c size (args ++ [fst next])
        else if length args + 1 <? size then
          fx_generate_impl_1 d c gen (gen (snd next)) size (args ++ [fst next])
        else container_complate c (args ++ [fst next])
    end.

  (** generate.hpp 55-81 *)
  Definition fx_generate_impl {G} (d : nat) (c : cont) (gen : G -> A * G) (g : G) (size : nat) : res cont :=
    if static_size c =? 0 then remake c size []
    else if 0 <? size then fx_generate_impl_1 d c gen (gen g) size []
    else container_complate c [].

  (** generate.hpp 86-90, generate_n.hpp 22-26 *)
  Definition fx_generate {G} (d : nat) (c : cont) (gen : G -> A * G) (g : G) : res cont :=
    fx_generate_impl d c gen g (csize c).
  Definition fx_generate_n {G} (d : nat) (c : cont) (n : nat) (gen : G -> A * G) (g : G) : res cont :=
    fx_generate_impl d c gen g n.

  (** unfold.hpp 23-79: the same with gen(state) in place of state() *)
  Fixpoint fx_unfold_impl_1 {G} (d : nat) (c : cont) (gen : G -> A * G) (next : A * G) (size : nat)
      (args : list A) : res cont :=
    match d with
    | 0 => Fuel
    | S d =>
        if static_size c =? length args + 1 then remake c size (args ++ [fst next])
        else if length args + 1 <? size then
          fx_unfold_impl_1 d c gen (gen (snd next)) size (args ++ [fst next])
        else container_complate c (args ++ [fst next])
    end.
  Definition fx_unfold {G} (d : nat) (c : cont) (gen : G -> A * G) (init : G) : res cont :=
    if static_size c =? 0 then remake c (csize c) []
    else if 0 <? csize c then fx_unfold_impl_1 d c gen (gen init) (csize c) []
    else container_complate c [].

  (** recurrence.hpp 24-47: the generator applied to the last InitSize arguments *)
  Definition call_gen (gen : list A -> A) (init_size : nat) (args : list A) : A :=
    gen (skipn (length args - init_size) args).

  (** recurrence.hpp 48-85 *)
  Fixpoint fx_recurrence_impl_drop (c : cont) (size : nat) (inits : list A) : res cont :=
    match inits with
    | [] => container_complate c []
    | _ :: t =>
        if length inits <=? static_size c then
          if size <? length inits then fx_recurrence_impl_drop c size t
          else container_complate c inits
        else fx_recurrence_impl_drop c size t
    end.

  (** recurrence.hpp 86-154 *)
  Definition fx_recurrence (d : nat) (c : cont) (gen : list A -> A) (inits : list A) : res cont :=
    if length inits <? static_size c then
      if length inits <? csize c then
        (fix impl_1 (d : nat) (args : list A) : res cont :=
           match d with
           | 0 => Fuel
           | S d =>
               if length args =? static_size c then remake c (csize c) args
               else if length args <? csize c then impl_1 d (args ++ [call_gen gen (length inits) args])
               else container_complate c args
           end) d inits
      else fx_recurrence_impl_drop c (csize c) inits
    else fx_recurrence_impl_drop c (csize c) inits.

  (** ** Transforming *)

  (** transform.hpp 30-106 *)
  Definition fx_transform {B} (ra : bool) (d : nat) (xs : list B) (first last : nat) (c : cont) (op : B -> A) : res cont :=
    if ra then remake_from c (last - first) (fun i => x <- rd xs (first + i) ;; Ok (op x))
    else pack c (fun first => if first =? last then Ok None
                              else x <- rd xs first ;; Ok (Some (S first, Some (op x))))
           (container_complate c) d first [].

  (** transform.hpp 148-223 *)
  Definition fx_transform2 {B C} (ra : bool) (d : nat) (xs : list B) (first1 last1 : nat) (ys : list C) (first2 : nat)
      (c : cont) (op : B -> C -> A) : res cont :=
    if ra then remake_from c (last1 - first1) (fun i =>
      x <- rd xs (first1 + i) ;; y <- rd ys (first2 + i) ;; Ok (op x y))
    else pack c (fun '((first1, first2) : nat * nat) =>
                   if first1 =? last1 then Ok None
                   else x <- rd xs first1 ;; y <- rd ys first2 ;;
                        Ok (Some ((S first1, S first2), Some (op x y))))
           (container_complate c) d (first1, first2) [].

  (** replace_copy.hpp 30-109 *)
  Definition fx_replace_copy (eqb : A -> A -> bool) (ra : bool) (d : nat) (xs : list A) (first last : nat) (c : cont)
      (old_value new_value : A) : res cont :=
    if ra then remake_from c (last - first) (fun i =>
      x <- rd xs (first + i) ;; if eqb x old_value then Ok new_value else rd xs (first + i))
    else pack c (fun first => if first =? last then Ok None
                              else x <- rd xs first ;;
                                   Ok (Some (S first, Some (if eqb x old_value then new_value else x))))
           (container_complate c) d first [].

  (** replace_copy_if.hpp 29-108 *)
  Definition fx_replace_copy_if (ra : bool) (d : nat) (xs : list A) (first last : nat) (c : cont)
      (pred : A -> bool) (new_value : A) : res cont :=
    if ra then remake_from c (last - first) (fun i =>
      x <- rd xs (first + i) ;; if pred x then Ok new_value else rd xs (first + i))
    else pack c (fun first => if first =? last then Ok None
                              else x <- rd xs first ;;
                                   Ok (Some (S first, Some (if pred x then new_value else x))))
           (container_complate c) d first [].

  (** clamp_range_copy.hpp 31-121; [clamp] is the model of algorithm/clamp.hpp *)
  Definition fx_clamp_range_copy (comp : A -> A -> bool) (ra : bool) (d : nat) (xs : list A) (first last : nat) (c : cont)
      (low high : A) : res cont :=
    if ra then remake_from c (last - first) (fun i =>
      x <- rd xs (first + i) ;; Ok (clamp comp x low high))
    else pack c (fun first => if first =? last then Ok None
                              else x <- rd xs first ;; Ok (Some (S first, Some (clamp comp x low high))))
           (container_complate c) d first [].

  (** ** Removing *)

  (** remove_copy.hpp 26-67 *)
  Definition fx_remove_copy (eqb : A -> A -> bool) (d : nat) (xs : list A) (first last : nat) (c : cont) (value : A) : res cont :=
    pack c (fun first => if first =? last then Ok None
                         else x <- rd xs first ;;
                              Ok (Some (S first, if eqb x value then None else Some x)))
      (container_complate c) d first [].

  (** remove_copy_if.hpp 26-67 *)
  Definition fx_remove_copy_if (d : nat) (xs : list A) (first last : nat) (c : cont) (pred : A -> bool) : res cont :=
    pack c (fun first => if first =? last then Ok None
                         else x <- rd xs first ;;
                              Ok (Some (S first, if pred x then None else Some x)))
      (container_complate c) d first [].

  (** unique_copy.hpp 105-139 (27-61 with == for pred) *)
  Fixpoint fx_unique_copy_impl (pred : A -> A -> bool) (d : nat) (xs : list A) (first last : nat) (c : cont)
      (head : A) (args : list A) : res cont :=
    match d with
    | 0 => Fuel
    | S d =>
        if static_size c =? length args + 1 then remake c (csize c) (args ++ [head])
        else if negb (first =? last) && (length args + 1 <? csize c) then
          x <- rd xs first ;;
          if negb (pred head x) then fx_unique_copy_impl pred d xs (S first) last c x (args ++ [head])
          else fx_unique_copy_impl pred d xs (S first) last c head args
        else container_complate c (args ++ [head])
    end.

  (** unique_copy.hpp 63-73, 141-151.  For a container with static_size 0 and the like the code
      does not compile. *)
  Definition fx_unique_copy (pred : A -> A -> bool) (d : nat) (xs : list A) (first last : nat) (c : cont) : res cont :=
    if first =? last then container_complate c []
    else x <- rd xs first ;; fx_unique_copy_impl pred d xs (S first) last c x [].

  (** remove.hpp 21-25, remove_if.hpp 21-25, unique.hpp 20-29: begin(cont) is position offset of the
      internal array *)
  Definition fx_remove (eqb : A -> A -> bool) (d : nat) (c : cont) (value : A) : res cont :=
    fx_remove_copy eqb d (cbase c) (coff c) (coff c + csize c) c value.
  Definition fx_remove_if (d : nat) (c : cont) (pred : A -> bool) : res cont :=
    fx_remove_copy_if d (cbase c) (coff c) (coff c + csize c) c pred.
  Definition fx_unique (pred : A -> A -> bool) (d : nat) (c : cont) : res cont :=
    fx_unique_copy pred d (cbase c) (coff c) (coff c + csize c) c.

  (** ** Rearranging *)

  (** reverse_copy.hpp 27-99 *)
  Definition fx_reverse_copy (ra : bool) (d : nat) (xs : list A) (first last : nat) (c : cont) : res cont :=
    if ra then remake_from c (last - first) (fun i => rd xs (last - (1 + i)))
    else pack c (fun last => if first =? last then Ok None
                             else x <- rd xs (last - 1) ;; Ok (Some (last - 1, Some x)))
           (container_complate c) d last [].

  (** rotate_copy.hpp 72-101 *)
  Definition fx_rotate_copy_impl_1 (d : nat) (xs : list A) (first last : nat) (c : cont) (args : list A) : res cont :=
    pack c (fun first => if first =? last then Ok None
                         else x <- rd xs first ;; Ok (Some (S first, Some x)))
      (container_complate c) d first args.

  (** rotate_copy.hpp 29-70 and 103-144 *)
  Definition fx_rotate_copy (ra : bool) (d : nat) (xs : list A) (first middle last : nat) (c : cont) : res cont :=
    if ra then
      let last_half_size := last - middle in
      remake_from c (last - first) (fun i =>
        if i <? last_half_size then rd xs (middle + i) else rd xs (first + (i - last_half_size)))
    else pack c (fun middle_first => if middle_first =? last then Ok None
                                     else x <- rd xs middle_first ;; Ok (Some (S middle_first, Some x)))
           (fx_rotate_copy_impl_1 d xs first middle c) d middle [].

  (** swap_element_copy.hpp 28-118; the positions are iterators of the input *)
  Definition fx_swap_element_copy (ra : bool) (d : nat) (xs : list A) (first last : nat) (c : cont) (pos1 pos2 : nat) : res cont :=
    if ra then remake_from c (last - first) (fun i =>
      if first + i =? pos1 then rd xs pos2
      else if first + i =? pos2 then rd xs pos1
      else rd xs (first + i))
    else pack c (fun first => if first =? last then Ok None
                              else x <- (if first =? pos1 then rd xs pos2
                                         else if first =? pos2 then rd xs pos1
                                         else rd xs first) ;;
                                   Ok (Some (S first, Some x)))
           (container_complate c) d first [].

  (** reverse.hpp 21-25, rotate.hpp 22-26, swap_element.hpp 22-31 *)
  Definition fx_reverse (d : nat) (c : cont) : res cont :=
    fx_reverse_copy true d (cbase c) (coff c) (coff c + csize c) c.
  Definition fx_rotate (d : nat) (c : cont) (middle : nat) : res cont :=
    fx_rotate_copy true d (cbase c) (coff c) middle (coff c + csize c) c.
  Definition fx_swap_element (c : cont) (pos1 pos2 : nat) : res cont :=
    fx_swap_element_copy true 0 (cbase c) (coff c) (coff c + csize c) c pos1 pos2.

  (** partition_copy.hpp 23-53 *)
  Fixpoint fx_partition_copy (d : nat) (xs : list A) (first last : nat) (c : cont) (pred : A -> bool)
      (args : list A) : res cont :=
    match d with
    | 0 => Fuel
    | S d =>
        if length args =? static_size c then remake c (csize c) args
        else if negb (first =? last) && (length args <? csize c) then
          x <- rd xs first ;;
          if pred x then fx_partition_copy d xs (S first) last c pred (x :: args)
          else fx_partition_copy d xs (S first) last c pred (args ++ [x])
        else container_complate c args
    end.

  (** stable_partition_copy.hpp 23-61 *)
  Definition fx_stable_partition_copy_impl_1 (d : nat) (xs : list A) (first last : nat) (c : cont) (pred : A -> bool)
      (args : list A) : res cont :=
    pack c (fun first => if first =? last then Ok None
                         else x <- rd xs first ;;
                              Ok (Some (S first, if negb (pred x) then Some x else None)))
      (container_complate c) d first args.

  (** stable_partition_copy.hpp 63-115 *)
  Definition fx_stable_partition_copy (d : nat) (xs : list A) (first last : nat) (c : cont) (pred : A -> bool) : res cont :=
    pack c (fun first => if first =? last then Ok None
                         else x <- rd xs first ;;
                              Ok (Some (S first, if pred x then Some x else None)))
      (fx_stable_partition_copy_impl_1 d xs first last c pred) d first [].

  (** partition.hpp 22-26, stable_partition.hpp 22-26 *)
  Definition fx_partition (d : nat) (c : cont) (pred : A -> bool) : res cont :=
    fx_partition_copy d (cbase c) (coff c) (coff c + csize c) c pred [].
  Definition fx_stable_partition (d : nat) (c : cont) (pred : A -> bool) : res cont :=
    fx_stable_partition_copy d (cbase c) (coff c) (coff c + csize c) c pred.

  (** ** Merging and set operations *)
  Section Ordered.
    Variable comp : A -> A -> bool.

    (** merge.hpp 42-80 *)
    Definition fx_merge (d : nat) (xs : list A) (first1 last1 : nat) (ys : list A) (first2 last2 : nat) (c : cont) : res cont :=
      pack c (fun '((first1, first2) : nat * nat) =>
        if negb (first1 =? last1) then
          if negb (first2 =? last2) then
            y <- rd ys first2 ;; x <- rd xs first1 ;;
            if comp y x then Ok (Some ((first1, S first2), Some y))
            else Ok (Some ((S first1, first2), Some x))
          else x <- rd xs first1 ;; Ok (Some ((S first1, first2), Some x))
        else if negb (first2 =? last2) then
          y <- rd ys first2 ;; Ok (Some ((first1, S first2), Some y))
        else Ok None)
        (container_complate c) d (first1, first2) [].

    (** inplace_merge.hpp 22-41 *)
    Definition fx_inplace_merge (d : nat) (c : cont) (middle : nat) : res cont :=
      fx_merge d (cbase c) (coff c) middle (cbase c) middle (coff c + csize c) c.

    (** set_union.hpp 42-84 *)
    Definition fx_set_union (d : nat) (xs : list A) (first1 last1 : nat) (ys : list A) (first2 last2 : nat) (c : cont) : res cont :=
      pack c (fun '((first1, first2) : nat * nat) =>
        if negb (first1 =? last1) then
          if negb (first2 =? last2) then
            x <- rd xs first1 ;; y <- rd ys first2 ;;
            if comp x y then Ok (Some ((S first1, first2), Some x))
            else if comp y x then Ok (Some ((first1, S first2), Some y))
            else Ok (Some ((S first1, S first2), Some x))
          else x <- rd xs first1 ;; Ok (Some ((S first1, first2), Some x))
        else if negb (first2 =? last2) then
          y <- rd ys first2 ;; Ok (Some ((first1, S first2), Some y))
        else Ok None)
        (container_complate c) d (first1, first2) [].

    (** set_intersection.hpp 42-76 *)
    Definition fx_set_intersection (d : nat) (xs : list A) (first1 last1 : nat) (ys : list A) (first2 last2 : nat) (c : cont) : res cont :=
      pack c (fun '((first1, first2) : nat * nat) =>
        if negb (first1 =? last1) then
          if negb (first2 =? last2) then
            x <- rd xs first1 ;; y <- rd ys first2 ;;
            if comp x y then Ok (Some ((S first1, first2), None))
            else if comp y x then Ok (Some ((first1, S first2), None))
            else Ok (Some ((S first1, S first2), Some x))
          else Ok None
        else Ok None)
        (container_complate c) d (first1, first2) [].

    (** set_difference.hpp 42-79 *)
    Definition fx_set_difference (d : nat) (xs : list A) (first1 last1 : nat) (ys : list A) (first2 last2 : nat) (c : cont) : res cont :=
      pack c (fun '((first1, first2) : nat * nat) =>
        if negb (first1 =? last1) then
          if negb (first2 =? last2) then
            x <- rd xs first1 ;; y <- rd ys first2 ;;
            if comp x y then Ok (Some ((S first1, first2), Some x))
            else if comp y x then Ok (Some ((first1, S first2), None))
            else Ok (Some ((S first1, S first2), None))
          else x <- rd xs first1 ;; Ok (Some ((S first1, first2), Some x))
        else Ok None)
        (container_complate c) d (first1, first2) [].

    (** set_symmetric_difference.hpp 42-84 *)
    Definition fx_set_symmetric_difference (d : nat) (xs : list A) (first1 last1 : nat) (ys : list A) (first2 last2 : nat)
        (c : cont) : res cont :=
      pack c (fun '((first1, first2) : nat * nat) =>
        if negb (first1 =? last1) then
          if negb (first2 =? last2) then
            x <- rd xs first1 ;; y <- rd ys first2 ;;
            if comp x y then Ok (Some ((S first1, first2), Some x))
            else if comp y x then Ok (Some ((first1, S first2), Some y))
            else Ok (Some ((S first1, S first2), None))
          else x <- rd xs first1 ;; Ok (Some ((S first1, first2), Some x))
        else if negb (first2 =? last2) then
          y <- rd ys first2 ;; Ok (Some ((first1, S first2), Some y))
        else Ok None)
        (container_complate c) d (first1, first2) [].

    (** ** Heaps.  All positions are offset + n in the internal array; deep_copy returns an equal
        container. *)
    Definition at_ (c : cont) (n : nat) : res A := rd (cbase c) (coff c + n).
    Definition less_at (c : cont) (i j : nat) : res bool :=
      x <- at_ c i ;; y <- at_ c j ;; Ok (comp x y).
    Definition swap_at (c : cont) (i j : nat) : res cont := fx_swap_element c (coff c + i) (coff c + j).

    (** push_heap.hpp 22-47 *)
    Fixpoint fx_push_heap_impl (d : nat) (c : cont) (n : nat) : res cont :=
      match d with
      | 0 => Fuel
      | S d =>
          if n =? 0 then Ok c
          else
            b <- less_at c ((n - 1) / 2) n ;;
            if b then c <- swap_at c ((n - 1) / 2) n ;; fx_push_heap_impl d c ((n - 1) / 2)
            else Ok c
      end.

    (** push_heap.hpp 52-60; of an empty container size(cont) - 1 is -1, and the code reads before
        the beginning *)
    Definition fx_push_heap (d : nat) (c : cont) : res cont :=
      if csize c =? 0 then UB else fx_push_heap_impl d c (csize c - 1).

    (** pop_heap.hpp 22-69 *)
    Fixpoint fx_pop_heap_impl (d : nat) (c : cont) (size n l r : nat) : res cont :=
      match d with
      | 0 => Fuel
      | S d =>
          b <- (if r <? size then less_at c l r else Ok false) ;;
          if b : bool then
            b <- less_at c n r ;;
            if b : bool then c <- swap_at c n r ;; fx_pop_heap_impl d c size r (r * 2 + 1) (r * 2 + 2)
            else Ok c
          else if l <? size then
            b <- less_at c n l ;;
            if b : bool then c <- swap_at c n l ;; fx_pop_heap_impl d c size l (l * 2 + 1) (l * 2 + 2)
            else Ok c
          else Ok c
      end.

    (** pop_heap.hpp 74-83; end(cont) - 1 of an empty container is not a position of it *)
    Definition fx_pop_heap (d : nat) (c : cont) : res cont :=
      if csize c =? 0 then UB
      else
        c <- fx_swap_element c (coff c) (coff c + csize c - 1) ;;
        fx_pop_heap_impl d c (csize c - 1) 0 1 2.

    (** sort_heap.hpp 23-45 *)
    Fixpoint fx_sort_heap_impl (d : nat) (c : cont) (size : nat) : res cont :=
      match d with
      | 0 => Fuel
      | S d =>
          if size <? 2 then Ok c
          else
            c <- fx_swap_element c (coff c) (coff c + (size - 1)) ;;
            c <- fx_pop_heap_impl d c (size - 1) 0 1 2 ;;
            fx_sort_heap_impl d c (size - 1)
      end.
    Definition fx_sort_heap (d : nat) (c : cont) : res cont := fx_sort_heap_impl d c (csize c).

    (** make_heap.hpp 152-187, with the recursive call as a parameter (46-80 and 97-126 are the same
        code with a template depth counter, which is not modelled) *)
    Definition fx_make_heap_impl_1 (rec : cont -> nat -> nat -> nat -> res cont) (c : cont) (n l r : nat) : res cont :=
      b <- less_at c l r ;;
      if b : bool then
        b <- less_at c n r ;;
        if b : bool then c <- swap_at c n r ;; rec c r (r * 2 + 1) (r * 2 + 2) else Ok c
      else
        b <- less_at c n l ;;
        if b : bool then c <- swap_at c n l ;; rec c l (l * 2 + 1) (l * 2 + 2) else Ok c.

    (** make_heap.hpp 188-220; make_heap_impl_1 takes one call level of its own *)
    Fixpoint fx_make_heap_impl (d : nat) (c : cont) (size n l r : nat) : res cont :=
      match d with
      | 0 => Fuel
      | S d =>
          if size <? r then Ok c
          else if r =? size then
            b <- less_at c n l ;;
            if b : bool then swap_at c n l else Ok c
          else
            c <- fx_make_heap_impl d c size l (l * 2 + 1) (l * 2 + 2) ;;
            c <- fx_make_heap_impl d c size r (r * 2 + 1) (r * 2 + 2) ;;
            fx_make_heap_impl_1 (fun c n l r =>
              match d with 0 => Fuel | S d => fx_make_heap_impl d c size n l r end) c n l r
      end.
    Definition fx_make_heap (d : nat) (c : cont) : res cont := fx_make_heap_impl d c (csize c) 0 1 2.

    (** make_partial_heap.hpp 24-52 *)
    Fixpoint fx_make_partial_heap_impl_1 (d : nat) (c : cont) (size middle_size n : nat) : res cont :=
      match d with
      | 0 => Fuel
      | S d =>
          if n <? size then
            b <- less_at c n 0 ;;
            if b : bool then
              c <- swap_at c n 0 ;;
              c <- fx_pop_heap_impl d c middle_size 0 1 2 ;;
              fx_make_partial_heap_impl_1 d c size middle_size (n + 1)
            else fx_make_partial_heap_impl_1 d c size middle_size (n + 1)
          else Ok c
      end.

    (** make_partial_heap.hpp 53-79 *)
    Definition fx_make_partial_heap_impl (d : nat) (c : cont) (size middle_size : nat) : res cont :=
      c <- fx_make_heap_impl d c middle_size 0 1 2 ;;
      fx_make_partial_heap_impl_1 d c size middle_size middle_size.
    Definition fx_make_partial_heap (d : nat) (c : cont) (middle : nat) : res cont :=
      fx_make_partial_heap_impl d c (csize c) (middle - coff c).

    (** partial_sort.hpp 23-49 *)
    Definition fx_partial_sort (d : nat) (c : cont) (middle : nat) : res cont :=
      let middle_size := middle - coff c in
      c <- fx_make_partial_heap_impl d c (csize c) middle_size ;;
      fx_sort_heap_impl d c middle_size.

    (** nth_element.hpp 23-64 *)
    Definition fx_nth_element (d : nat) (c : cont) (nth : nat) : res cont :=
      let nth_size := nth - coff c in
      c <- fx_make_partial_heap_impl d c (csize c) (nth_size + 1) ;;
      swap_at c 0 nth_size.

    (** ** Sorting *)

    (** count - 1 of a size_type (of 64 bits) *)
    Definition pred_size (n : N) : N := if N.eqb n 0 then 18446744073709551615 else N.pred n.

    (** stable_sort.hpp 30-77, 78-117, 118-141; begin(cont) and end(cont) are positions of the
        internal array *)
    Fixpoint fx_stable_sort_impl_synonym (d : nat) (c : cont) (first : nat) (value : A) (count : N)
        (args : list A) : res cont :=
      match d with
      | 0 => Fuel
      | S d =>
          if length args =? static_size c then remake c (csize c) args
          else if negb (first =? coff c + csize c) && negb (N.eqb count 0) then
            x <- rd (cbase c) first ;;
            if negb (comp x value) && negb (comp value x) then
              fx_stable_sort_impl_synonym d c (S first) value (pred_size count) (args ++ [x])
            else fx_stable_sort_impl_synonym d c (S first) value count args
          else fx_stable_sort_impl_restart d c value args
      end
    with fx_stable_sort_impl_restart_1 (d : nat) (c : cont) (first : nat) (value : A) (count : N) (current : nat)
        (prev_value : A) (args : list A) : res cont :=
      match d with
      | 0 => Fuel
      | S d =>
          if negb (first =? coff c + csize c) then
            x <- rd (cbase c) first ;;
            if comp prev_value x then
              if N.eqb count 0 || comp x value then
                fx_stable_sort_impl_restart_1 d c (S first) x 1 first prev_value args
              else if comp value x then
                fx_stable_sort_impl_restart_1 d c (S first) value count current prev_value args
              else fx_stable_sort_impl_restart_1 d c (S first) value (N.succ count) current prev_value args
            else fx_stable_sort_impl_restart_1 d c (S first) value count current prev_value args
          else fx_stable_sort_impl_synonym d c (S current) value (pred_size count) (args ++ [value])
      end
    with fx_stable_sort_impl_restart (d : nat) (c : cont) (prev_value : A) (args : list A) : res cont :=
      match d with
      | 0 => Fuel
      | S d =>
          if length args <? csize c then
            x <- rd (cbase c) (coff c) ;;
            fx_stable_sort_impl_restart_1 d c (coff c) x 0 (coff c) prev_value args
          else container_complate c args
      end.

    (** stable_sort.hpp 142-174 *)
    Fixpoint fx_stable_sort_impl_1 (d : nat) (c : cont) (first : nat) (value : A) (count : N) (current : nat) : res cont :=
      match d with
      | 0 => Fuel
      | S d =>
          if negb (first =? coff c + csize c) then
            x <- rd (cbase c) first ;;
            if comp x value then fx_stable_sort_impl_1 d c (S first) x 1 first
            else if comp value x then fx_stable_sort_impl_1 d c (S first) value count current
            else fx_stable_sort_impl_1 d c (S first) value (N.succ count) current
          else fx_stable_sort_impl_synonym d c (S current) value (pred_size count) [value]
      end.

    (** stable_sort.hpp 175-210; sort.hpp 20-24 calls it *)
    Definition fx_stable_sort (d : nat) (c : cont) : res cont :=
      if static_size c <=? 1 then Ok c
      else
        x <- rd (cbase c) (coff c) ;;
        fx_stable_sort_impl_1 d c (S (coff c)) x 1 (coff c).
    Definition fx_sort (d : nat) (c : cont) : res cont := fx_stable_sort d c.

    (** ** Permutations *)

    (** next_permutation.hpp 32-43: copy_backward of [reverse_iterator(end), reverse_iterator(begin + n));
        position i of the reversed internal array is its position static_size - 1 - i *)
    Definition fx_next_permutation_impl_4 (c : cont) (n : nat) : res (cont * bool) :=
      c <- fx_copy_backward true 0 (rev (cbase c))
             (static_size c - (coff c + csize c)) (static_size c - (coff c + n)) c ;;
      Ok (c, true).

    (** next_permutation.hpp 44-61 *)
    Fixpoint fx_next_permutation_impl_3 (d : nat) (c : cont) (i ii j : nat) : res (cont * bool) :=
      match d with
      | 0 => Fuel
      | S d =>
          x <- rd (cbase c) i ;; y <- rd (cbase c) (j - 1) ;;
          if negb (comp x y) then fx_next_permutation_impl_3 d c i ii (j - 1)
          else c' <- fx_swap_element c i (j - 1) ;; fx_next_permutation_impl_4 c' (ii - coff c)
      end.

    (** next_permutation.hpp 62-80 *)
    Fixpoint fx_next_permutation_impl_2 (d : nat) (c : cont) (i ii : nat) : res (cont * bool) :=
      match d with
      | 0 => Fuel
      | S d =>
          x <- rd (cbase c) i ;; y <- rd (cbase c) ii ;;
          if comp x y then fx_next_permutation_impl_3 d c i ii (coff c + csize c)
          else if i =? coff c then
            c <- fx_reverse_copy true d (cbase c) (coff c) (coff c + csize c) c ;; Ok (c, false)
          else fx_next_permutation_impl_2 d c (i - 1) i
      end.

    (** next_permutation.hpp 81-117 *)
    Definition fx_next_permutation (d : nat) (c : cont) : res (cont * bool) :=
      if csize c =? 0 then Ok (c, false)
      else if S (coff c) =? coff c + csize c then Ok (c, false)
      else fx_next_permutation_impl_2 d c (coff c + csize c - 2) (coff c + csize c - 1).

    (** prev_permutation.hpp 32-117, the same with the arguments of comp exchanged *)
    Definition fx_prev_permutation_impl_4 (c : cont) (n : nat) : res (cont * bool) :=
      c <- fx_copy_backward true 0 (rev (cbase c))
             (static_size c - (coff c + csize c)) (static_size c - (coff c + n)) c ;;
      Ok (c, true).
    Fixpoint fx_prev_permutation_impl_3 (d : nat) (c : cont) (i ii j : nat) : res (cont * bool) :=
      match d with
      | 0 => Fuel
      | S d =>
          y <- rd (cbase c) (j - 1) ;; x <- rd (cbase c) i ;;
          if negb (comp y x) then fx_prev_permutation_impl_3 d c i ii (j - 1)
          else c' <- fx_swap_element c i (j - 1) ;; fx_prev_permutation_impl_4 c' (ii - coff c)
      end.
    Fixpoint fx_prev_permutation_impl_2 (d : nat) (c : cont) (i ii : nat) : res (cont * bool) :=
      match d with
      | 0 => Fuel
      | S d =>
          y <- rd (cbase c) ii ;; x <- rd (cbase c) i ;;
          if comp y x then fx_prev_permutation_impl_3 d c i ii (coff c + csize c)
          else if i =? coff c then
            c <- fx_reverse_copy true d (cbase c) (coff c) (coff c + csize c) c ;; Ok (c, false)
          else fx_prev_permutation_impl_2 d c (i - 1) i
      end.
    Definition fx_prev_permutation (d : nat) (c : cont) : res (cont * bool) :=
      if csize c =? 0 then Ok (c, false)
      else if S (coff c) =? coff c + csize c then Ok (c, false)
      else fx_prev_permutation_impl_2 d c (coff c + csize c - 2) (coff c + csize c - 1).
  End Ordered.

  (** ** Numeric: sprout/numeric/fixed/partial_sum.hpp 99-169 (25-96 with + for binary_op) *)
  Fixpoint fx_partial_sum_impl_1 (op : A -> A -> A) (d : nat) (xs : list A) (first last : nat) (c : cont)
      (value : A) (args : list A) : res cont :=
    match d with
    | 0 => Fuel
    | S d =>
        if static_size c =? length args + 1 then remake c (csize c) (args ++ [value])
        else if negb (first =? last) && (length args + 1 <? csize c) then
          x <- rd xs first ;; fx_partial_sum_impl_1 op d xs (S first) last c (op value x) (args ++ [value])
        else container_complate c (args ++ [value])
    end.
  Definition fx_partial_sum (op : A -> A -> A) (d : nat) (xs : list A) (first last : nat) (c : cont) : res cont :=
    if static_size c =? 0 then remake c (csize c) []
    else if first =? last then container_complate c []
    else x <- rd xs first ;; fx_partial_sum_impl_1 op d xs (S first) last c x [].
End Fixed.

(** numeric/fixed/iota.hpp 24-55, for integers that do not overflow *)
Definition fx_iota (c : cont nat) (value : nat) : res (cont nat) :=
  remake_indexes c (fun i =>
    if (coff c <=? i) && (i <? coff c + csize c) then Ok (value + (i - coff c)) else rd (cbase c) i).

(** ** Shuffling.  [dist g a b] is a draw of uniform_int_distribution(a, b) with the engine [g] *)
Section Shuffle.
  Context {A G : Type}.
  Variable dist : G -> nat -> nat -> nat * G.

  (** algorithm/fixed/shuffle.hpp 30-42 (shuffle_result.hpp 33-49); [rnd]: the value drawn and the
      engine behind it *)
  Fixpoint fx_make_shuffle_indexes_1 (d : nat) (n : nat) (rnd : nat * G) (arr : cont nat) (i : nat)
      : res (cont nat * G) :=
    match d with
    | 0 => Fuel
    | S d =>
        if i <? n - 1 then
          arr <- fx_swap_element arr (coff arr + i) (coff arr + fst rnd) ;;
          fx_make_shuffle_indexes_1 d n (dist (snd rnd) 0 (n - 1)) arr (i + 1)
        else
          arr <- fx_swap_element arr (coff arr + i) (coff arr + fst rnd) ;; Ok (arr, snd rnd)
    end.

  (** shuffle.hpp 43-57 (shuffle_result.hpp 50-68); N is static_size, pit the value-initialised array *)
  Definition fx_make_shuffle_indexes (d : nat) (N n : nat) (g : G) : res (cont nat * G) :=
    let pit := Cont (repeat 0 N) 0 N in
    if 1 <? n then
      arr <- fx_iota pit 0 ;; fx_make_shuffle_indexes_1 d n (dist g 0 (n - 1)) arr 0
    else Ok (pit, g).

  (** shuffle.hpp 58-111, shuffle_result.hpp 69-126: the container and the engine afterwards *)
  Definition fx_shuffle_result (d : nat) (c : cont A) (g : G) : res (cont A * G) :=
    '(shuffled, g) <- fx_make_shuffle_indexes d (static_size c) (csize c) g ;;
    c' <- remake_indexes c (fun i =>
      if (coff c <=? i) && (i <? coff c + csize c)
      then j <- rd (cbase shuffled) (i - coff c) ;; rd (cbase c) (coff c + j)
      else rd (cbase c) i) ;;
    Ok (c', g).

  (** random_swap.hpp 27-89, random_swap_result.hpp 31-105 *)
  Definition fx_random_swap_result (c : cont A) (g : G) : res (cont A * G) :=
    let n := csize c in
    let '(i0, i1, g) :=
      if 1 <? n then
        let '(i0, g) := dist g 0 (n - 1) in let '(i1, g) := dist g 0 (n - 1) in (i0, i1, g)
      else (0, 0, g) in
    if i0 =? i1 then Ok (c, g)
    else c <- fx_swap_element c (coff c + i0) (coff c + i1) ;; Ok (c, g).
End Shuffle.
