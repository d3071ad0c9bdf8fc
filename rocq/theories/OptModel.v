(** Model of sprout::tribool (sprout/logic/tribool/tribool.hpp), sprout::optional
    (sprout/optional/optional.hpp, get.hpp, comparison.hpp, sprout/utility/compare_pointees.hpp) and
    sprout::variant (sprout/variant/variant.hpp).

    SPROUT_ASSERT is modelled as undefined behaviour when it fails. *)
From Coq Require Import List Arith Bool.
From Verif Require Import Base.
Import ListNotations.

(** * tribool *)
(** tribool.hpp 35-39 *)
Inductive tri := False_value | True_value | Indeterminate_value.
(** 46-48 *)
Definition tri_of (b : bool) : tri := if b then True_value else False_value.
(** 52-54: the conversion to bool *)
Definition tri_true (x : tri) : bool := match x with True_value => true | _ => false end.
(** 60-63 *)
Definition indeterminate (x : tri) : bool := match x with Indeterminate_value => true | _ => false end.
(** 68-74 *)
Definition tri_not (x : tri) : tri :=
  match x with False_value => tri_of true | True_value => tri_of false | _ => Indeterminate_value end.
(** 79-85 *)
Definition tri_and (lhs rhs : tri) : tri :=
  if tri_true (tri_not lhs) || tri_true (tri_not rhs) then tri_of false
  else if tri_true lhs && tri_true rhs then tri_of true
  else Indeterminate_value.
(** 86-94 *)
Definition tri_and_bool (lhs : tri) (rhs : bool) : tri := if rhs then lhs else tri_of false.
Definition bool_and_tri (lhs : bool) (rhs : tri) : tri := if lhs then rhs else tri_of false.
(** 96-103 *)
Definition ind_and_tri (lhs : tri) : tri := if tri_true (tri_not lhs) then tri_of false else Indeterminate_value.
Definition tri_and_ind (lhs : tri) : tri := if tri_true (tri_not lhs) then tri_of false else Indeterminate_value.
(** 108-114 *)
Definition tri_or (lhs rhs : tri) : tri :=
  if tri_true (tri_not lhs) && tri_true (tri_not rhs) then tri_of false
  else if tri_true lhs || tri_true rhs then tri_of true
  else Indeterminate_value.
(** 115-122 *)
Definition tri_or_bool (lhs : tri) (rhs : bool) : tri := if rhs then tri_of true else lhs.
Definition bool_or_tri (lhs : bool) (rhs : tri) : tri := if lhs then tri_of true else rhs.
(** 123-130 *)
Definition ind_or_tri (lhs : tri) : tri := if tri_true lhs then tri_of true else Indeterminate_value.
Definition tri_or_ind (lhs : tri) : tri := if tri_true lhs then tri_of true else Indeterminate_value.
(** 135-141; the arguments are determinate, so && and || of tribools *)
Definition tri_eq (lhs rhs : tri) : tri :=
  if indeterminate lhs || indeterminate rhs then Indeterminate_value
  else tri_or (tri_and lhs rhs) (tri_and (tri_not lhs) (tri_not rhs)).
(** 142-157 *)
Definition tri_eq_bool (lhs : tri) (rhs : bool) : tri := tri_eq lhs (tri_of rhs).
Definition bool_eq_tri (lhs : bool) (rhs : tri) : tri := tri_eq (tri_of lhs) rhs.
Definition ind_eq_tri (lhs : tri) : tri := tri_eq Indeterminate_value lhs.
Definition tri_eq_ind (lhs : tri) : tri := tri_eq Indeterminate_value lhs.
(** 162-168 *)
Definition tri_neq (lhs rhs : tri) : tri :=
  if indeterminate lhs || indeterminate rhs then Indeterminate_value
  else tri_not (tri_or (tri_and lhs rhs) (tri_and (tri_not lhs) (tri_not rhs))).
(** 169-184 *)
Definition tri_neq_bool (lhs : tri) (rhs : bool) : tri := tri_neq lhs (tri_of rhs).
Definition bool_neq_tri (lhs : bool) (rhs : tri) : tri := tri_neq (tri_of lhs) rhs.
Definition ind_neq_tri (lhs : tri) : tri := tri_neq Indeterminate_value lhs.
Definition tri_neq_ind (lhs : tri) : tri := tri_neq Indeterminate_value lhs.

(** Expressions over tribools: variables, constants and the operators *)
Inductive texp :=
| TVar (n : nat) | TBool (b : bool) | TInd
| TNot (e : texp) | TAnd (e f : texp) | TOr (e f : texp) | TEq (e f : texp) | TNeq (e f : texp).
(** The operators take a bool operand or the keyword indeterminate as it is when it stands there. *)
Fixpoint teval (rho : nat -> tri) (e : texp) : tri :=
  match e with
  | TVar n => rho n
  | TBool b => tri_of b
  | TInd => Indeterminate_value
  | TNot e => tri_not (teval rho e)
  | TAnd (TBool b) f => bool_and_tri b (teval rho f)
  | TAnd e (TBool b) => tri_and_bool (teval rho e) b
  | TAnd TInd f => ind_and_tri (teval rho f)
  | TAnd e TInd => tri_and_ind (teval rho e)
  | TAnd e f => tri_and (teval rho e) (teval rho f)
  | TOr (TBool b) f => bool_or_tri b (teval rho f)
  | TOr e (TBool b) => tri_or_bool (teval rho e) b
  | TOr TInd f => ind_or_tri (teval rho f)
  | TOr e TInd => tri_or_ind (teval rho e)
  | TOr e f => tri_or (teval rho e) (teval rho f)
  | TEq (TBool b) f => bool_eq_tri b (teval rho f)
  | TEq e (TBool b) => tri_eq_bool (teval rho e) b
  | TEq TInd f => ind_eq_tri (teval rho f)
  | TEq e TInd => tri_eq_ind (teval rho e)
  | TEq e f => tri_eq (teval rho e) (teval rho f)
  | TNeq (TBool b) f => bool_neq_tri b (teval rho f)
  | TNeq e (TBool b) => tri_neq_bool (teval rho e) b
  | TNeq TInd f => ind_neq_tri (teval rho f)
  | TNeq e TInd => tri_neq_ind (teval rho e)
  | TNeq e f => tri_neq (teval rho e) (teval rho f)
  end.

(** * optional *)
(** optional.hpp 101-102: the flag and the holder; [None] is a holder without a value *)
Record opt (A : Type) : Type := Opt { init : bool; val : option A }.
Arguments Opt {A} init val.
Arguments init {A} o.
Arguments val {A} o.

(** What the observers give *)
Inductive seen (A : Type) : Type := Value (a : A) | Null | Bad_access | Out_of_range.
Arguments Value {A} a.
Arguments Null {A}.
Arguments Bad_access {A}.
Arguments Out_of_range {A}.

Section Optional.
  Context {A : Type}.
  Implicit Types o : opt A.

  (** The contents of a holder *)
  Definition held (v : option A) : res A := match v with Some a => Ok a | None => UB end.

  (** 110-115 *)
  Definition opt_none : opt A := Opt false None.
  (** 130-133, 139-154 *)
  Definition opt_some (a : A) : opt A := Opt true (Some a).
  (** 155-158 *)
  Definition opt_cond (cond : bool) (a : A) : opt A := Opt cond (if cond then Some a else None).
  (** 360-362 *)
  Definition deref o : res A := if init o then held (val o) else UB.
  (** 116-128, 164-173: copying and moving *)
  Definition opt_copy o : res (opt A) :=
    if init o then a <- deref o ;; Ok (Opt (init o) (Some a)) else Ok (Opt (init o) None).
  (** 104-106, 264-266: [destroy] keeps the value *)
  Definition reset o : opt A := Opt false (val o).
  (** 278-283 *)
  Definition opt_swap o (p : opt A) : opt A * opt A := (Opt (init p) (val p), Opt (init o) (val o)).
  (** 229-262: a temporary is made and swapped in *)
  Definition assign o (v : opt A) : res (opt A) := temp <- opt_copy v ;; Ok (snd (opt_swap temp o)).
  (** 206-227, 250-256 *)
  Definition assign_value o (a : A) : opt A := snd (opt_swap (opt_some a) o).

  (** 377-379 *)
  Definition is_initialized o : bool := init o.
  (** 327-336 *)
  Definition value o : res (seen A) := if is_initialized o then a <- held (val o) ;; Ok (Value a) else Ok Bad_access.
  (** 344-353 *)
  Definition value_or o (v : A) : res A := if is_initialized o then held (val o) else Ok v.
  (** 295-304: what the pointer refers to *)
  Definition get_pointer o : res (seen A) := if is_initialized o then a <- held (val o) ;; Ok (Value a) else Ok Null.
  (** 407-415 *)
  Definition osize o : nat := if is_initialized o then 1 else 0.
  Definition oempty o : bool := negb (is_initialized o).
  (** 423-432 *)
  Definition oat o (i : nat) : res (seen A) := if i <? osize o then a <- held (val o) ;; Ok (Value a) else Ok Out_of_range.

  (** 73-86, get.hpp 20-40: the static members and the free functions do not look at the flag *)
  Definition free_get_pointer o : seen A := match val o with Some a => Value a | None => Null end.
End Optional.

(** Statements over numbered variables that hold optionals *)
Inductive ostmt (A : Type) : Type :=
| SReset (i : nat) | SSet (i : nat) (a : A) | SCond (i : nat) (c : bool) (a : A) | SCopy (i j : nat) | SSwap (i j : nat).
Arguments SReset {A} i.
Arguments SSet {A} i a.
Arguments SCond {A} i c a.
Arguments SCopy {A} i j.
Arguments SSwap {A} i j.
Definition put {B} (s : nat -> B) (i : nat) (b : B) : nat -> B := fun j => if j =? i then b else s j.
Definition orun1 {A} (st : ostmt A) (s : nat -> opt A) : res (nat -> opt A) :=
  match st with
  | SReset i => Ok (put s i (reset (s i)))
  | SSet i a => Ok (put s i (assign_value (s i) a))
  | SCond i c a => o <- assign (s i) (opt_cond c a) ;; Ok (put s i o)
  | SCopy i j => o <- assign (s i) (s j) ;; Ok (put s i o)
  | SSwap i j => if i =? j then Ok s else Ok (put (put s i (fst (opt_swap (s i) (s j)))) j (snd (opt_swap (s i) (s j))))
  end.
Fixpoint orun {A} (sts : list (ostmt A)) (s : nat -> opt A) : res (nat -> opt A) :=
  match sts with [] => Ok s | st :: sts => s <- orun1 st s ;; orun sts s end.

(** compare_pointees.hpp 18-61, comparison.hpp 23-52 *)
Section OptCompare.
  Context {A : Type}.
  Variables (eqb less : A -> A -> bool).
  Definition opt_eq (o p : opt A) : res bool :=
    if negb (Bool.eqb (negb (init o)) (negb (init p))) then Ok false
    else if negb (init o) then Ok true
    else a <- deref o ;; b <- deref p ;; Ok (eqb a b).
  Definition opt_neq (o p : opt A) : res bool := r <- opt_eq o p ;; Ok (negb r).
  Definition opt_lt (o p : opt A) : res bool :=
    if negb (init p) then Ok false
    else if negb (init o) then Ok true
    else a <- deref o ;; b <- deref p ;; Ok (less a b).
  Definition opt_gt (o p : opt A) : res bool := opt_lt p o.
  Definition opt_le (o p : opt A) : res bool := r <- opt_lt p o ;; Ok (negb r).
  Definition opt_ge (o p : opt A) : res bool := r <- opt_lt o p ;; Ok (negb r).
  (** comparison.hpp 62-121: with nullopt on the right, on the left *)
  Definition eq_null (o : opt A) : bool := negb (init o).
  Definition null_eq (o : opt A) : bool := negb (init o).
  Definition neq_null (o : opt A) : bool := init o.
  Definition null_neq (o : opt A) : bool := init o.
  Definition lt_null (o : opt A) : bool := false.
  Definition null_lt (o : opt A) : bool := init o.
  Definition gt_null (o : opt A) : bool := init o.
  Definition null_gt (o : opt A) : bool := false.
  Definition le_null (o : opt A) : bool := negb (init o).
  Definition null_le (o : opt A) : bool := true.
  Definition ge_null (o : opt A) : bool := true.
  Definition null_ge (o : opt A) : bool := negb (init o).
End OptCompare.

(** * variant *)
(** variant.hpp 52-53: a value for every alternative, and the number of the current one.  Values of
    all alternatives are of one type [V]; alternative [i] has the type named [nth i types]. *)
Record variant (V : Type) : Type := Variant { tuple_ : list V; which_ : nat }.
Arguments Variant {V} tuple_ which_.
Arguments tuple_ {V} v.
Arguments which_ {V} v.

(** sprout/type/algorithm/find_index.hpp: the number of types when there is none *)
Fixpoint find_index (types : list nat) (t : nat) : nat :=
  match types with
  | [] => 0
  | u :: types => if u =? t then 0 else S (find_index types t)
  end.

Section Var.
  Context {V : Type}.
  Variables (types : list nat) (dflt : nat -> V).
  (** 55-58 *)
  Definition var_default : variant V := Variant (map dflt types) 0.
  (** 43-50, 59-65, 234-240: default values before the operand; flexibly_construct gives the elements
      behind it default values.  [None]: does not compile *)
  Definition var_of (t : nat) (operand : V) : option (variant V) :=
    let i := find_index types t in
    if i <? length types then
      Some (Variant (map dflt (firstn i types) ++ operand :: map dflt (skipn (S i) types)) i)
    else None.
  (** 67-72 *)
  Definition var_swap (x y : variant V) : variant V * variant V :=
    (Variant (tuple_ y) (which_ y), Variant (tuple_ x) (which_ x)).
  (** 314-327, 296-313 *)
  Definition var_get (x : variant V) (t : nat) : res V :=
    let i := find_index types t in if i =? which_ x then rd (tuple_ x) i else UB.
  (** 207-223; [n] is the number of types after [i] *)
  Fixpoint visit {R} (t : list V) (v : nat -> V -> R) (which i n : nat) : res R :=
    match n with
    | 0 => x <- rd t i ;; Ok (v (nth i types 0) x)
    | S n => if i =? which then x <- rd t i ;; Ok (v (nth i types 0) x) else visit t v which (S i) n
    end.
  (** 329-344; the visitor gets a value and its type *)
  Definition apply_visitor {R} (x : variant V) (v : nat -> V -> R) : res R :=
    if which_ x <? length types then visit (tuple_ x) v (which_ x) 0 (length types - 1) else UB.

  Variables (eqb less : nat -> V -> V -> bool).
  (** 155-188; [n] is the number of types from [i] on *)
  Fixpoint compare_at (f : nat -> V -> V -> bool) (l r : list V) (which i n : nat) : res bool :=
    match n with
    | 0 => Ok false
    | S n =>
        if i =? which then a <- rd l i ;; b <- rd r i ;; Ok (f (nth i types 0) a b)
        else compare_at f l r which (S i) n
    end.
  (** 270-289 *)
  Definition var_eq (x y : variant V) : res bool :=
    if which_ x =? which_ y then compare_at eqb (tuple_ x) (tuple_ y) (which_ x) 0 (length types) else Ok false.
  Definition var_neq (x y : variant V) : res bool := r <- var_eq x y ;; Ok (negb r).
  Definition var_lt (x y : variant V) : res bool :=
    if which_ x <? which_ y then Ok true
    else if which_ x =? which_ y then compare_at less (tuple_ x) (tuple_ y) (which_ x) 0 (length types)
    else Ok false.
  Definition var_gt (x y : variant V) : res bool := var_lt y x.
  Definition var_le (x y : variant V) : res bool := r <- var_lt y x ;; Ok (negb r).
  Definition var_ge (x y : variant V) : res bool := r <- var_lt x y ;; Ok (negb r).
End Var.
