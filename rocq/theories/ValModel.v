(** Model of sprout::valarray and its subset views: sprout/valarray/valarray.hpp, arithmetic.hpp (and
    bitwise.hpp, comparison.hpp, logical.hpp, transcendentals.hpp, which have the same form),
    container.hpp, slice_array.hpp, gslice_array.hpp, mask_array.hpp, indirect_array.hpp,
    sprout/detail/algorithm/mask_index.hpp and sprout/numeric/fixed/partial_sum.hpp.

    A valarray (valarray.hpp 66-125) is a fixed container, FixModel.v, without offset: its internal
    array_ of N elements and its size_.  [z] is value_type().  [d] bounds recursion depths, [k] loop
    turns.  Sizes and indices are natural numbers: the wrap-around of std::size_t in products of
    sizes and strides is not modelled.  The copy and move assignment operators (228-239) name members
    that do not exist and cannot be instantiated. *)
From Coq Require Import List Arith ZArith Bool.
From Verif Require Import Base SearchModel OrderModel NumModel MutModel FixModel BstrModel.
Import ListNotations.
Open Scope nat_scope.

(** A value or an exception *)
Inductive thrown (A : Type) : Type := Returns (a : A) | Throws (e : exn).
Arguments Returns {A} a.
Arguments Throws {A} e.

Section Valarray.
  Context {A : Type}.
  Variable z : A.

  (** valarray.hpp 114-124: Indexes < n ? args : value_type() *)
  Fixpoint reset_tail (n : nat) (args : list A) : list A :=
    match args, n with
    | [], _ => []
    | _ :: args, 0 => z :: reset_tail 0 args
    | x :: args, S n => x :: reset_tail n args
    end.
  (** container.hpp 36-41, valarray.hpp 644-649: remake of a valarray resets the elements behind the
      size.  The algorithms of FixModel.v end in [remake], so this is applied to their results. *)
  Definition vremade (r : res (cont A)) : res (cont A) :=
    c <- r ;; Ok (Cont (reset_tail (csize c) (cbase c)) (coff c) (csize c)).

  (** 71-76 *)
  Definition checked (N n : nat) (c : cont A) : thrown (cont A) := if n <=? N then Returns c else Throws Length_error.
  (** 81-83 *)
  Definition ctor : nat -> cont A := fun N => Cont (repeat z N) 0 0.
  (** 84-86 *)
  Definition ctor_size (N n : nat) : thrown (cont A) := checked N n (Cont (repeat z N) 0 n).
  (** 87-98 *)
  Definition ctor_value (N : nat) (value : A) (n : nat) : res (thrown (cont A)) :=
    args <- expand (fun i => Ok (if i <? n then value else z)) 0 N ;; Ok (checked N n (Cont args 0 n)).
  (** 99-110; [at_] is first[.].  The constructors from an array, an initializer list and a view
      (160-226) use this one. *)
  Definition ctor_seq (N : nat) (at_ : nat -> res A) (n : nat) : res (thrown (cont A)) :=
    args <- expand (fun i => if i <? n then at_ i else Ok z) 0 N ;; Ok (checked N n (Cont args 0 n)).

  (** 284-291 *)
  Definition vget (c : cont A) (i : nat) : res A := rd (cbase c) i.
  Definition vset (c : cont A) (i : nat) (x : A) : res (cont A) :=
    b <- wr (cbase c) i x ;; Ok (Cont b (coff c) (csize c)).
  (** 531-542 *)
  Definition vat (c : cont A) (i : nat) : res (thrown A) :=
    if i <? csize c then x <- vget c i ;; Ok (Returns x) else Ok (Throws Out_of_range_error).
  (** 543-550 *)
  Definition vfront (c : cont A) : res A := rd (cbase c) 0.
  (** 551-558: size() - 1 wraps around when the size is 0 *)
  Definition vback (c : cont A) : res A := if csize c =? 0 then UB else vget c (csize c - 1).
  (** 527-529 *)
  Definition vempty (c : cont A) : bool := negb (csize c =? 0).
  (** 402-405 *)
  Definition vswap (c e : cont A) : cont A * cont A :=
    (Cont (cbase e) (coff c) (csize e), Cont (cbase c) (coff e) (csize c)).

  (** 240-244, 457-459: sprout::array::fill over the whole internal array *)
  Definition vfill (c : cont A) (value : A) : cont A := Cont (repeat value (length (cbase c))) (coff c) (csize c).
  (** 450-454 (lengthcheck: throws before anything is changed) *)
  Definition vresize (c : cont A) (n : nat) (x : A) : cont A * option exn :=
    if n <=? length (cbase c) then (Cont (repeat x (length (cbase c))) (coff c) n, None)
    else (c, Some Length_error).
  (** 245-283: lengthcheck, sprout::copy into begin(), size.  [n] elements, read by [at_] *)
  Fixpoint copy_in (at_ : nat -> res A) (i n : nat) (b : list A) : res (list A) :=
    match n with
    | 0 => Ok b
    | S n => x <- at_ i ;; b <- wr b i x ;; copy_in at_ (S i) n b
    end.
  Definition vassign (c : cont A) (at_ : nat -> res A) (n : nat) : res (cont A * option exn) :=
    if n <=? length (cbase c) then
      b <- copy_in at_ 0 n (cbase c) ;; Ok (Cont b (coff c) n, None)
    else Ok (c, Some Length_error).

  (** 336-343, 436-448, arithmetic.hpp (a valarray and a scalar, bind1st and bind2nd): transform onto
      *this *)
  Definition vmap (ra : bool) (d : nat) (c : cont A) (op : A -> A) : res (cont A) :=
    vremade (fx_transform ra d (cbase c) 0 (csize c) c op).
  (** arithmetic.hpp 22-26 and the like *)
  Definition vmap2 (ra : bool) (d : nat) (c e : cont A) (op : A -> A -> A) : res (cont A) :=
    vremade (fx_transform2 ra d (cbase c) 0 (csize c) (cbase e) 0 c op).
  (** 350-398: for_each with an assigning function bound to the right operand *)
  Definition vupdate (k : nat) (c : cont A) (op : A -> A) : res (cont A) :=
    r <- for_each k (cbase c) 0 (csize c) (fun (u : unit) x => (u, op x)) tt ;;
    Ok (Cont (fst r) (coff c) (csize c)).

  (** 409-412 *)
  Definition vsum (ra : bool) (d : nat) (c : cont A) (plus : A -> A -> A) : res A :=
    accumulate ra d (cbase c) 0 (csize c) z plus.
  (** 413-420 *)
  Definition vmin (less : A -> A -> bool) (ra : bool) (d : nat) (c : cont A) : res A :=
    i <- min_element less ra d (cbase c) 0 (csize c) ;; rd (cbase c) i.
  Definition vmax (less : A -> A -> bool) (ra : bool) (d : nat) (c : cont A) : res A :=
    i <- max_element less ra d (cbase c) 0 (csize c) ;; rd (cbase c) i.

  (** 421-427: [begin() + i, end()) and [begin(), end() + i) are not ranges when |i| exceeds the size *)
  Definition vshift (ra : bool) (d : nat) (c : cont A) (i : Z) : res (cont A) :=
    if (0 <? i)%Z then
      if csize c <? Z.to_nat i then UB
      else vremade (fx_copy ra d (cbase c) (Z.to_nat i) (csize c) c)
    else if (i <? 0)%Z then
      if csize c <? Z.to_nat (- i) then UB
      else vremade (fx_copy_backward ra d (cbase c) 0 (csize c - Z.to_nat (- i)) c)
    else Ok c.
  (** 428-434: begin() + i and end() + i are outside of the range when |i| exceeds the size *)
  Definition vcshift (d : nat) (c : cont A) (i : Z) : res (cont A) :=
    if (0 <? i)%Z then
      if csize c <? Z.to_nat i then UB else vremade (fx_rotate d c (Z.to_nat i))
    else if (i <? 0)%Z then
      if csize c <? Z.to_nat (- i) then UB else vremade (fx_rotate d c (csize c - Z.to_nat (- i)))
    else Ok c.
End Valarray.

(** valarray.hpp 344-348, comparison.hpp, logical.hpp: the result is another valarray type, made out of
    sized_pit(size()), whose elements are [zb] *)
Definition vmap_to {A B} (zb : B) (ra : bool) (d : nat) (c : cont A) (op : A -> B) : res (cont B) :=
  vremade zb (fx_transform ra d (cbase c) 0 (csize c) (Cont (repeat zb (length (cbase c))) 0 (csize c)) op).
Definition vmap2_to {A B} (zb : B) (ra : bool) (d : nat) (c e : cont A) (op : A -> A -> B) : res (cont B) :=
  vremade zb (fx_transform2 ra d (cbase c) 0 (csize c) (cbase e) 0
                (Cont (repeat zb (length (cbase c))) 0 (csize c)) op).

(** The views: operator[](i) is the element of the array at [vidx i], for a view of [vlen] elements.
    Their iterators are index_iterators, so *(begin() + i) is operator[](i). *)
Record view : Type := View { vidx : nat -> res nat; vlen : nat }.

(** slice_array.hpp 198-210 *)
Definition slice_view (start size stride : nat) : view := View (fun i => Ok (start + stride * i)) size.

(** indirect_array.hpp 49-51, 174-186 *)
Definition indirect_view (indexes : cont nat) : view := View (vget indexes) (csize indexes).

(** detail/algorithm/mask_index.hpp 24-70 *)
Definition mask_index (d : nat) (mask : list bool) (first last : nat) (c : cont nat) : res (cont nat) :=
  vremade 0 (pack c (fun '((first, n) : nat * nat) =>
                if first =? last then Ok None
                else x <- rd mask first ;; Ok (Some ((S first, S n), if x then Some n else None)))
              (container_complate c) d (first, 0) []).
(** mask_array.hpp 41, 49-57: indexes_type has min(M, N) elements and its constructor throws when the mask selects
    more *)
Definition mask_view (ra : bool) (d N : nat) (mask : cont bool) : res (thrown view) :=
  n <- count Bool.eqb ra d (cbase mask) 0 (csize mask) true ;;
  match ctor_size 0 (Nat.min (length (cbase mask)) N) n with
  | Throws e => Ok (Throws e)
  | Returns c => r <- mask_index d (cbase mask) 0 (csize mask) c ;; Ok (Returns (indirect_view r))
  end.

(** numeric/fixed/partial_sum.hpp 99-131 *)
Fixpoint partial_sum_impl_1 {A} (d : nat) (xs : list A) (first last : nat) (c : cont A) (op : A -> A -> A)
    (value : A) (args : list A) : res (cont A) :=
  match d with
  | 0 => Fuel
  | S d =>
      if length args + 1 =? static_size c then remake c (csize c) (args ++ [value])
      else if negb (first =? last) && (length args + 1 <? csize c) then
        x <- rd xs first ;; partial_sum_impl_1 d xs (S first) last c op (op value x) (args ++ [value])
      else container_complate c (args ++ [value])
  end.
(** 132-158 *)
Definition fx_partial_sum {A} (d : nat) (xs : list A) (first last : nat) (c : cont A) (op : A -> A -> A) : res (cont A) :=
  if static_size c =? 0 then remake c (csize c) []
  else if negb (first =? last) then
    x <- rd xs first ;; partial_sum_impl_1 d xs (S first) last c op x []
  else container_complate c [].

(** gslice_array.hpp 85-93: the sizes backwards, their partial products, and backwards again *)
Definition gslice_sizes (ra : bool) (d : nat) (sizes : cont nat) : res (cont nat) :=
  p <- vremade 0 (fx_partial_sum d (rev (firstn (csize sizes) (cbase sizes))) 0 (csize sizes) sizes Nat.mul) ;;
  vremade 0 (fx_copy ra d (rev (firstn (csize p) (cbase p))) 0 (csize p) sizes).
(** 94-107 *)
Fixpoint index_impl (d i : nat) (sizes : list nat) (first1 last1 : nat) (strides : list nat) (first2 : nat) : res nat :=
  match d with
  | 0 => Fuel
  | S d =>
      if negb (first1 =? last1) then
        s <- rd strides first2 ;; n <- rd sizes first1 ;;
        if n =? 0 then UB
        else r <- index_impl d (i mod n) sizes (S first1) last1 strides (S first2) ;; Ok (s * (i / n) + r)
      else s <- rd strides first2 ;; Ok (s * i)
  end.
(** 108-113, 196-203 (size() is size_.front()); [N] is arr_->max_size() *)
Definition gslice_view (ra : bool) (d N start : nat) (sizes strides : cont nat) : res view :=
  s <- gslice_sizes ra d sizes ;;
  n <- rd (cbase s) 0 ;;
  Ok (View (fun i => if i <? n then r <- index_impl d i (cbase s) 1 (csize s) (cbase strides) 0 ;; Ok (start + r) else Ok N) n).

Section Views.
  Context {A : Type}.
  Variable z : A.

  (** slice_array.hpp 205-222 *)
  Definition view_get (c : cont A) (v : view) (i : nat) : res A := j <- vidx v i ;; vget c j.
  Definition view_front (c : cont A) (v : view) : res A := view_get c v 0.
  Definition view_back (c : cont A) (v : view) : res A := if vlen v =? 0 then UB else view_get c v (vlen v - 1).
  (** valarray.hpp 190-226: the constructors from views; also the subscripts of constants, 293-330 *)
  Definition view_read (N : nat) (c : cont A) (v : view) : res (thrown (cont A)) := ctor_seq z N (view_get c v) (vlen v).

  (** slice_array.hpp 92-173 and the same in the other views: *it2 op= *it over the [n] elements of the
      operand, [at_]; and 76-87, sprout::copy, with [op] the right projection *)
  Fixpoint view_update (op : A -> A -> A) (at_ : nat -> res A) (v : view) (i n : nat) (c : cont A) : res (cont A) :=
    match n with
    | 0 => Ok c
    | S n =>
        y <- at_ i ;; j <- vidx v i ;; x <- vget c j ;; c <- vset c j (op x y) ;;
        view_update op at_ v (S i) n c
    end.
  Definition view_assign (at_ : nat -> res A) (v : view) (n : nat) (c : cont A) : res (cont A) :=
    view_update (fun _ y => y) at_ v 0 n c.
  (** slice_array.hpp 88-91: sprout::fill *)
  Definition view_fill (v : view) (value : A) (c : cont A) : res (cont A) :=
    view_update (fun _ y => y) (fun _ => Ok value) v 0 (vlen v) c.
End Views.
