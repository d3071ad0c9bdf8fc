(** Model of sprout::algorithm::join (sprout/algorithm/string/join.hpp) and of the iterator and the range
    adaptor over the sizes of a sequence of containers that it uses
    (sprout/iterator/size_enum_iterator.hpp, sprout/range/adaptor/size_enumed.hpp).
    A container of containers is the list of the inner containers' elements; S is the static size of the
    inner container type and N that of the outer one. *)
From Coq Require Import List Arith Bool ZArith.
From Verif Require Import Base OrderModel FixModel.
Import ListNotations.
Local Open Scope nat_scope.

(** ** size_enum_iterator<Iterator, true>: the sizes of the containers, with the size of a separator behind
    each.  [current] is the position of the container. *)
Record sit := Sit { current : Z; is_sep : bool }.

Definition b2z (b : bool) : Z := if b then 1%Z else 0%Z.
Definition rdz {A} (l : list A) (i : Z) : res A := if (i <? 0)%Z then UB else rd l (Z.to_nat i).

(** size_enum_iterator.hpp 196-198 *)
Definition se_deref (szs : list nat) (sep : nat) (it : sit) : res nat :=
  if is_sep it then Ok sep else rdz szs (current it).
(** 202-220 and 259-264 *)
Definition se_next (it : sit) : sit :=
  if is_sep it then Sit (current it + 1) false else Sit (current it) true.
(** 221-239 and 265-270 *)
Definition se_prev (it : sit) : sit :=
  if is_sep it then Sit (current it) false else Sit (current it - 1) true.
(** 240-242 and 246-250; / and % of C++ truncate, the int converts to bool *)
Definition se_plus (it : sit) (n : Z) : sit :=
  Sit (current it + Z.quot (n + b2z (is_sep it)) 2) (negb (Z.rem (n + b2z (is_sep it)) 2 =? 0)%Z).
(** 243-245 and 251-255 *)
Definition se_minus (it : sit) (n : Z) : sit :=
  Sit (current it - Z.quot (n - b2z (is_sep it)) 2) (negb (Z.rem (n - b2z (is_sep it)) 2 =? 0)%Z).
(** 256-258 *)
Definition se_index (szs : list nat) (it : sit) (n : Z) : res nat :=
  rdz szs (current it + Z.quot (n + b2z (is_sep it)) 2).
(** 285-291 *)
Definition se_eqb (x y : sit) : bool := (current x =? current y)%Z && Bool.eqb (is_sep x) (is_sep y).
(** 309-317 *)
Definition se_ltb (x y : sit) : bool :=
  (current x <? current y)%Z || ((current x =? current y)%Z && negb (is_sep x) && is_sep y).
(** 365-376 *)
Definition se_diff (x y : sit) : Z :=
  (current x - current y + (if is_sep x then if is_sep y then 0 else -1 else if is_sep y then 1 else 0))%Z.

(** ** size_enumed_range<Range, true> of a range of [n] containers: size_enumed.hpp 77-90 *)
Definition se_begin : sit := Sit 0 false.
Definition se_end (n : nat) (omit_last : bool) : sit :=
  if omit_last then if n =? 0 then Sit (Z.of_nat n) false else Sit (Z.of_nat n - 1) true
  else Sit (Z.of_nat n) false.
(** distance(begin, end) of random access iterators: distance.hpp 49-54; the range's size() *)
Definition se_size (n : nat) (omit_last : bool) : Z := se_diff (se_end n omit_last) se_begin.
(** what is read between two iterators by an algorithm that uses next, != and * *)
Fixpoint se_walk (d : nat) (szs : list nat) (sep : nat) (first last : sit) : res (list nat) :=
  match d with
  | 0 => Fuel
  | S d =>
      if se_eqb first last then Ok []
      else x <- se_deref szs sep first ;; xs <- se_walk d szs sep (se_next first) last ;; Ok (x :: xs)
  end.
Definition size_enumed (d : nat) (szs : list nat) (sep : nat) (omit_last : bool) : res (list nat) :=
  se_walk d szs sep se_begin (se_end (length szs) omit_last).

(** ** The result types *)

(** results::join<ContainerContainer, void>: join.hpp 92-101 *)
Definition join_size (S N : nat) : nat := S * N.
(** results::join: join.hpp 74-90, [p] = string_size of the separator; the subtraction is one of size_t,
    a result type of 2^64 - p elements is no type *)
Definition join_sep_size (S N p : nat) : res nat :=
  if S =? 0 then Ok 0 else if p <=? (S + p) * N then Ok ((S + p) * N - p) else UB.

Section Join.
  Context {A : Type}.
  Variable dflt : A.   (* value_type() *)

  (** make<Result>(args...) with no more arguments than elements: the others are value-initialized *)
  Definition make_n (r : nat) (args : list A) : list A := args ++ repeat dflt (r - length args).

  (** range::fixed::partial_sum of the sizes to an array of [n] zeros: join.hpp 147-150 and 327-330.
      partial_sum (numeric/fixed/partial_sum.hpp 25-96) uses next, != and * of the iterators only *)
  Definition join_sizes (d : nat) (szs : list nat) (n : nat) : res (list nat) :=
    c <- fx_partial_sum Nat.add d szs 0 (length szs) (Cont (repeat 0 n) 0 n) ;; Ok (cbase c).

  (** first[idx - (found != begin ? found[-1] : 0)] *)
  Definition join_at (c : list A) (sizes : list nat) (found idx : nat) : res A :=
    p <- (if found =? 0 then Ok 0 else rd sizes (found - 1)) ;;
    if p <=? idx then rd c (idx - p) else UB.

  (** join.hpp 105-118 *)
  Definition join_ra_2 (conts : list (list A)) (found : nat) (sizes : list nat) (idx : nat) : res A :=
    if found =? length sizes then Ok dflt
    else c <- rd conts found ;; join_at c sizes found idx.

  (** join.hpp 119-135 *)
  Definition join_ra_1 (d : nat) (conts : list (list A)) (r : nat) (sizes : list nat) : res (list A) :=
    expand (fun i =>
      found <- lower_bound d sizes 0 (length sizes) (i + 1) Nat.ltb ;;
      join_ra_2 conts found sizes i) 0 r.

  (** join.hpp 136-152 and 231-247: outer and inner containers with random access *)
  Definition join_ra (d : nat) (S N : nat) (conts : list (list A)) : res (list A) :=
    sizes <- join_sizes d (map (@length A) conts) N ;;
    join_ra_1 d conts (join_size S N) sizes.

  (** join.hpp 154-229; [i]: the position in *first_cont while join_impl_1 runs *)
  Fixpoint join_fwd_impl (d : nat) (conts : list (list A)) (r : nat) (first_cont : nat) (i : option nat)
      (args : list A) : res (list A) :=
    match d with
    | 0 => Fuel
    | S d =>
        if r =? length args then Ok (make_n r args)
        else
          match i with
          | None =>
              if negb (first_cont =? length conts) then join_fwd_impl d conts r first_cont (Some 0) args
              else Ok (make_n r args)
          | Some first =>
              c <- rd conts first_cont ;;
              if negb (first =? length c) then
                x <- rd c first ;; join_fwd_impl d conts r first_cont (Some (S first)) (args ++ [x])
              else join_fwd_impl d conts r (S first_cont) None args
          end
    end.
  (** join.hpp 248-267 *)
  Definition join_fwd (d : nat) (S N : nat) (conts : list (list A)) : res (list A) :=
    join_fwd_impl d conts (join_size S N) 0 None [].

  (** ** With a separator.  [sep] is its characters; a string literal has a terminating value_type() behind
      them. *)
  Definition sep_raw (literal : bool) (sep : list A) : list A := if literal then sep ++ [dflt] else sep.
  (** str_size: join.hpp 51-66 (string_size 27-49 is the same number) *)
  Definition str_size (literal : bool) (raw : list A) : nat :=
    if literal then length raw - 1 else length raw.

  (** join.hpp 279-292 *)
  Definition join_sep_ra_2 (conts : list (list A)) (first : list A) (found : nat) (sizes : list nat) (idx : nat)
      : res A :=
    if found =? length sizes then Ok dflt
    else if found mod 2 =? 1 then join_at first sizes found idx
    else c <- rd conts (found / 2) ;; join_at c sizes found idx.

  (** join.hpp 293-312 *)
  Definition join_sep_ra_1 (d : nat) (conts : list (list A)) (first : list A) (r : nat) (sizes : list nat)
      : res (list A) :=
    expand (fun i =>
      found <- lower_bound d sizes 0 (length sizes) (i + 1) Nat.ltb ;;
      join_sep_ra_2 conts first found sizes i) 0 r.

  (** join.hpp 313-332 and 443-462 *)
  Definition join_sep_ra (d : nat) (S N : nat) (conts : list (list A)) (literal : bool) (sep : list A)
      : res (list A) :=
    let raw := sep_raw literal sep in
    let p := str_size literal raw in
    r <- join_sep_size S N p ;;
    szs <- size_enumed d (map (@length A) conts) p true ;;
    sizes <- join_sizes d szs (if N =? 0 then 0 else N * 2 - 1) ;;
    join_sep_ra_1 d conts raw r sizes.

  (** join.hpp 334-441; [sep]: the separator is being appended *)
  Fixpoint join_sep_fwd_impl (d : nat) (conts : list (list A)) (raw : list A) (r : nat) (first_cont : nat)
      (sep : bool) (i : option nat) (args : list A) : res (list A) :=
    match d with
    | 0 => Fuel
    | S d =>
        if r =? length args then Ok (make_n r args)
        else
          match i with
          | None =>
              if negb (first_cont =? length conts)
              then join_sep_fwd_impl d conts raw r first_cont sep (Some 0) args
              else Ok (make_n r args)
          | Some first =>
              c <- (if sep then Ok raw else rd conts first_cont) ;;
              if negb (first =? length c) then
                x <- rd c first ;; join_sep_fwd_impl d conts raw r first_cont sep (Some (S first)) (args ++ [x])
              else if sep then join_sep_fwd_impl d conts raw r (S first_cont) false None args
              else join_sep_fwd_impl d conts raw r first_cont true None args
          end
    end.
  (** join.hpp 463-488 *)
  Definition join_sep_fwd (d : nat) (S N : nat) (conts : list (list A)) (literal : bool) (sep : list A)
      : res (list A) :=
    let raw := sep_raw literal sep in
    r <- join_sep_size S N (str_size literal raw) ;;
    join_sep_fwd_impl d conts raw r 0 false None [].

  (** make<basic_string>(args...): the size is the position of the first T() (string/string.hpp 1213-1236) *)
  Variable eqb : A -> A -> bool.
  Fixpoint make_string (args : list A) : list A :=
    match args with
    | [] => []
    | x :: l => if eqb x dflt then [] else x :: make_string l
    end.
End Join.
