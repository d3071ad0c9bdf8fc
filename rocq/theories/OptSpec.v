(** Specification vocabulary of tribool, optional and variant. *)
From Coq Require Import List Arith Bool.
From Verif Require Import Base OptModel.
Import ListNotations.

(** The truth value [b] is possible. *)
Definition means (t : tri) (b : bool) : Prop :=
  match t with True_value => b = true | False_value => b = false | Indeterminate_value => True end.

(** Two-valued evaluation; [TInd] is any truth value, chosen anew at each occurrence: a relation. *)
Fixpoint possible (rho : nat -> bool) (e : texp) (b : bool) : Prop :=
  match e with
  | TVar n => b = rho n
  | TBool c => b = c
  | TInd => True
  | TNot e => possible rho e (negb b)
  | TAnd e f => exists x y, possible rho e x /\ possible rho f y /\ b = x && y
  | TOr e f => exists x y, possible rho e x /\ possible rho f y /\ b = x || y
  | TEq e f => exists x y, possible rho e x /\ possible rho f y /\ b = Bool.eqb x y
  | TNeq e f => exists x y, possible rho e x /\ possible rho f y /\ b = negb (Bool.eqb x y)
  end.

(** The optional shows this. *)
Definition shows {A} (o : opt A) (v : option A) : Prop :=
  match v with Some a => init o = true /\ val o = Some a | None => init o = false end.

(** The statements on plain options. *)
Definition srun1 {A} (st : ostmt A) (s : nat -> option A) : nat -> option A :=
  match st with
  | SReset i => put s i None
  | SSet i a => put s i (Some a)
  | SCond i c a => put s i (if c then Some a else None)
  | SCopy i j => put s i (s j)
  | SSwap i j => put (put s i (s j)) j (s i)
  end.
Definition srun {A} (sts : list (ostmt A)) (s : nat -> option A) : nat -> option A :=
  fold_left (fun s st => srun1 st s) sts s.

(** The order in which nothing comes before everything. *)
Definition option_less {A} (less : A -> A -> bool) (v w : option A) : bool :=
  match v, w with
  | _, None => false
  | None, Some _ => true
  | Some a, Some b => less a b
  end.
Definition option_eq {A} (eqb : A -> A -> bool) (v w : option A) : bool :=
  match v, w with
  | None, None => true
  | Some a, Some b => eqb a b
  | _, _ => false
  end.

(** The variant has the value [a] of alternative [i]. *)
Definition stores {V} (types : list nat) (x : variant V) (i : nat) (a : V) : Prop :=
  length (tuple_ x) = length types /\ which_ x = i /\ nth_error (tuple_ x) i = Some a /\ i < length types.
