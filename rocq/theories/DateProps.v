(** * Properties C147, C148: to_time_t

    Proved elsewhere (DateProof.v); nothing else is in this file. *)

From Coq Require Import ZArith Bool List Lia.
From Verif Require Import Base BitModel DateModel DateSpec DateProof.
Import ListNotations.
Open Scope Z_scope.

(** ** C147.  to_time_t gives the seconds since 1970-01-01 00:00:00. *)

(** Any two dates are a definite number of days apart, positive exactly if the first is before. *)
Theorem days_apart_defined : forall a b, is_date a -> is_date b ->
  exists n, apart_by a b n /\ (before a b <-> 0 < n) /\ forall n', apart_by a b n' -> n' = n.
Proof. exact @apart_exists_lemma. Qed.
Print Assumptions days_apart_defined.
Example days_apart_defined_ex : apart_by epoch (Date 1972 3 1) 790 /\ apart_by epoch (Date 1969 12 31) (-1).
Proof. split; [left|right]; (split; [lia|vm_compute; reflexivity]). Qed.

Theorem to_time_t_counts_partial : forall x h mi s n,
  is_date x -> year_ok (yr x) -> is_int h -> is_int mi -> is_int s -> apart_by epoch x n ->
  to_time_t (yr x) (mo x) (dy x) h mi s = Ok (86400 * n + 3600 * h + 60 * mi + s).
Proof. exact @to_time_t_lemma. Qed.
Print Assumptions to_time_t_counts_partial.
Example to_time_t_counts_ex : to_time_t 1972 3 1 23 59 60 = Ok (86400 * 790 + 3600 * 23 + 60 * 59 + 60).
Proof.
  refine (to_time_t_counts_partial (Date 1972 3 1) 23 59 60 790 _ _ _ _ _ (proj1 days_apart_defined_ex)); vm_compute;
    repeat split; discriminate.
Qed.

(** For the first two months of year 0 the division rounds the wrong way. *)
Theorem to_time_t_year_zero_refuted :
  to_time_t 0 2 29 0 0 0 = to_time_t 0 3 1 0 0 0 /\ is_date (Date 0 2 29) /\ tomorrow (Date 0 2 29) = Date 0 3 1.
Proof. exact year_zero_refuted_lemma. Qed.
Print Assumptions to_time_t_year_zero_refuted.

(** [year * 365] is computed as int although the result is a time_t. *)
Theorem to_time_t_late_year_refuted : to_time_t 5883517 3 1 0 0 0 = UB.
Proof. exact late_year_refuted_lemma. Qed.
Print Assumptions to_time_t_late_year_refuted.

Theorem tm_to_time_t_counts_partial : forall t n, let x := Date (tm_year t + 1900) (tm_mon t + 1) (tm_mday t) in
  is_date x -> year_ok (yr x) -> is_int (tm_hour t) -> is_int (tm_min t) -> is_int (tm_sec t) -> apart_by epoch x n ->
  tm_to_time_t t = Ok (86400 * n + 3600 * tm_hour t + 60 * tm_min t + tm_sec t).
Proof. exact @tm_lemma. Qed.
Print Assumptions tm_to_time_t_counts_partial.
Example tm_to_time_t_counts_ex : tm_to_time_t (Tm 69 11 31 23 59 59) = Ok (-1).
Proof.
  refine (tm_to_time_t_counts_partial (Tm 69 11 31 23 59 59) (-1) _ _ _ _ _ (proj2 days_apart_defined_ex)); vm_compute;
    repeat split; discriminate.
Qed.

(** ** C148.  to_time_t respects the order of time. *)

Theorem to_time_t_orders_partial : forall a b h mi s h' mi' s' ta tb,
  is_date a -> is_date b -> year_ok (yr a) -> year_ok (yr b) -> is_time h mi s -> is_time h' mi' s' ->
  to_time_t (yr a) (mo a) (dy a) h mi s = Ok ta -> to_time_t (yr b) (mo b) (dy b) h' mi' s' = Ok tb ->
  (ta < tb <-> before a b \/ (a = b /\ time_before h mi s h' mi' s')).
Proof. exact @order_lemma. Qed.
Print Assumptions to_time_t_orders_partial.
Example to_time_t_orders_ex : to_time_t 2000 2 29 23 59 59 = Ok 951868799 /\ to_time_t 2000 3 1 0 0 0 = Ok 951868800 /\
  before (Date 2000 2 29) (Date 2000 3 1).
Proof. repeat split. unfold before. cbn [yr mo dy]. lia. Qed.
