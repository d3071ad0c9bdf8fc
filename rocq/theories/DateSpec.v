(** * The Gregorian calendar, day by day *)

From Coq Require Import ZArith Bool List.
From Verif Require Import BitModel.
Import ListNotations.
Open Scope Z_scope.

Definition leap (y : Z) : bool := (y mod 4 =? 0) && (negb (y mod 100 =? 0) || (y mod 400 =? 0)).

Definition month_length (y m : Z) : Z :=
  if m =? 2 then (if leap y then 29 else 28)
  else if existsb (Z.eqb m) [4; 6; 9; 11] then 30 else 31.

Record date : Type := Date { yr : Z; mo : Z; dy : Z }.

Definition is_date (x : date) : Prop := 1 <= mo x <= 12 /\ 1 <= dy x <= month_length (yr x) (mo x).

Definition tomorrow (x : date) : date :=
  if dy x <? month_length (yr x) (mo x) then Date (yr x) (mo x) (dy x + 1)
  else if mo x <? 12 then Date (yr x) (mo x + 1) 1
  else Date (yr x + 1) 1 1.

Fixpoint days_later (n : nat) (x : date) : date :=
  match n with O => x | S n' => days_later n' (tomorrow x) end.

(** [b] is [n] days after [a] (before, if [n] is negative) *)
Definition apart_by (a b : date) (n : Z) : Prop :=
  (0 <= n /\ days_later (Z.to_nat n) a = b) \/ (n < 0 /\ days_later (Z.to_nat (- n)) b = a).

Definition epoch : date := Date 1970 1 1.

Definition before (a b : date) : Prop :=
  yr a < yr b \/ (yr a = yr b /\ (mo a < mo b \/ (mo a = mo b /\ dy a < dy b))).

Definition is_int (x : Z) : Prop := tmin (Ity true 2) <= x <= tmax (Ity true 2).

(** a time of the day *)
Definition is_time (h m s : Z) : Prop := 0 <= h < 24 /\ 0 <= m < 60 /\ 0 <= s < 60.
Definition time_before (h m s h' m' s' : Z) : Prop :=
  h < h' \/ (h = h' /\ (m < m' \/ (m = m' /\ s < s'))).

(** The years for which every int operation of to_time_t stays in range *)
Definition year_ok (y : Z) : Prop := 1 <= y <= 5883516.
