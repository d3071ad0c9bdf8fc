(** Model of the index sequences: sprout/index_tuple/integer_range.hpp, integer_n.hpp,
    make_integer_sequence.hpp.  T is an integer type of at least the rank of int with values in
    [-M, M) (signed) or [0, 2M) (unsigned).  Signed overflow and a division by zero make the program ill-formed:
    UB.  A template argument of type T given by an unsigned expression is converted modulo 2M (compilers that
    take the narrowing for an error reject descending ranges of a signed T). *)
From Coq Require Import List Arith Bool ZArith.
From Verif Require Import Base.
Import ListNotations.
Local Open Scope Z_scope.

Section Range.
  Variables (M : Z) (sgn : bool).

  (** Conversion to T, to make_signed<T>, to make_unsigned<T>. *)
  Definition to_signed (x : Z) : Z := (x + M) mod (2 * M) - M.
  Definition to_unsigned (x : Z) : Z := x mod (2 * M).
  Definition to_T (x : Z) : Z := if sgn then to_signed x else to_unsigned x.
  (** Signed arithmetic. *)
  Definition in_signed (x : Z) : bool := (- M <=? x) && (x <? M).
  Definition chk (x : Z) : res Z := if in_signed x then Ok x else UB.
  (** Arithmetic in T. *)
  Definition op_T (x : Z) : res Z := if sgn then chk x else Ok (to_unsigned x).

  Fixpoint map_res {A B} (f : A -> res B) (l : list A) : res (list B) :=
    match l with
    | [] => Ok []
    | x :: t => y <- f x ;; u <- map_res f t ;; Ok (y :: u)
    end.

  (** integer_range_default_step (integer_range.hpp 19-22) *)
  Definition default_step (first last : Z) : Z := if first <=? last then 1 else -1.

  (** integer_range_next_even, integer_range_next_odd (26-38) *)
  Definition next_even (seq : list Z) (next : Z) : res (list Z) :=
    s <- map_res (fun i => op_T (i + next)) seq ;; Ok (seq ++ s).
  Definition next_odd (seq : list Z) (next tail : Z) : res (list Z) :=
    s <- map_res (fun i => op_T (i + next)) seq ;; Ok (seq ++ s ++ [tail]).

  (** integer_range_dispatch (40-75); n is unsigned, so are n / 2 * step and first + (n - 1) * step *)
  Fixpoint range_dispatch (d : nat) (first step n : Z) : res (list Z) :=
    match d with
    | O => Fuel
    | S d =>
        if n =? 0 then Ok []
        else if n =? 1 then Ok [first]
        else if n mod 2 =? 0 then
          seq <- range_dispatch d first step (n / 2) ;;
          next_even seq (to_T (to_unsigned (n / 2 * step)))
        else
          seq <- range_dispatch d first step (n / 2) ;;
          next_odd seq (to_T (to_unsigned (n / 2 * step))) (to_T (to_unsigned (first + (n - 1) * step)))
    end.

  (** the number of elements (85); / truncates *)
  Definition range_count (first last step : Z) : res Z :=
    dist <- op_T (last - first) ;;
    adj <- chk (if 0 <? step then step - 1 else step + 1) ;;
    num <- chk (to_signed dist + adj) ;;
    if step =? 0 then UB else q <- chk (Z.quot num step) ;; Ok (to_unsigned q).

  (** integer_range_impl, integer_range (76-120) *)
  Definition integer_range (d : nat) (first last step : Z) : res (list Z) :=
    if ((first <? last) && (0 <? step)) || ((last <? first) && (step <? 0)) || (first =? last) then
      n <- range_count first last step ;; range_dispatch d first step n
    else UB.

  (** make_integer_sequence<T, N> (make_integer_sequence.hpp 15-26) *)
  Definition make_integer_sequence (d : nat) (n : Z) : res (list Z) :=
    integer_range d 0 n (default_step 0 n).
End Range.

(** integer_n_impl (integer_n.hpp 36-71) *)
Fixpoint integer_n {A} (d : nat) (i : A) (n : nat) : res (list A) :=
  match d with
  | O => Fuel
  | S d =>
      if (n =? 0)%nat then Ok []
      else if (n =? 1)%nat then Ok [i]
      else
        seq <- integer_n d i (n / 2) ;;
        if (n mod 2 =? 0)%nat then Ok (seq ++ seq) else Ok (seq ++ seq ++ [i])
  end.
