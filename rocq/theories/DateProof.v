From Coq Require Import ZArith Bool List Lia ZifyBool ZifyNat.
From Verif Require Import Base BitModel DateModel DateSpec.
Import ListNotations.
Open Scope Z_scope.

Definition dayno (x : date) : Z :=
  let (y, m) := if mo x <=? 2 then (yr x - 1, mo x + 10) else (yr x, mo x - 2) in
  y / 4 - y / 100 + y / 400 + 367 * m / 12 + dy x + y * 365 - 719499.

Ltac months := match goal with H : 1 <= ?m <= 12 |- _ =>
  assert (m = 1 \/ m = 2 \/ m = 3 \/ m = 4 \/ m = 5 \/ m = 6 \/ m = 7 \/ m = 8 \/ m = 9 \/ m = 10 \/ m = 11 \/ m = 12) as MM by lia;
  clear H; decompose [or] MM; clear MM; subst m end.

Ltac eu := Z.to_euclidean_division_equations; lia.

Lemma leap_b y : leap y = (y mod 4 =? 0) && (negb (y mod 100 =? 0) || (y mod 400 =? 0)). Proof. reflexivity. Qed.

Lemma month_length_pos y m : 28 <= month_length y m <= 31.
Proof. unfold month_length. destruct (m =? 2); [destruct (leap y); lia|]. destruct (existsb _ _); lia. Qed.

Definition cum (m : Z) : Z := 367 * (if m <=? 2 then m + 10 else m - 2) / 12.

Lemma dayno_cum x : dayno x = let y := if mo x <=? 2 then yr x - 1 else yr x in
  y / 4 - y / 100 + y / 400 + cum (mo x) + dy x + y * 365 - 719499.
Proof. unfold dayno, cum. destruct (mo x <=? 2); reflexivity. Qed.

(** The leap day between two years *)
Lemma year_step y : (y / 4 - y / 100 + y / 400) - ((y - 1) / 4 - (y - 1) / 100 + (y - 1) / 400) = if leap y then 1 else 0.
Proof. rewrite leap_b. destruct (y mod 4 =? 0) eqn:E4; destruct (y mod 100 =? 0) eqn:E1; destruct (y mod 400 =? 0) eqn:E3; cbn [andb orb negb]; eu. Qed.

Ltac closed := cbv [month_length existsb orb];
  repeat match goal with
  | |- context [cum ?k] => let v := eval vm_compute in (cum k) in change (cum k) with v
  | |- context [?a <=? ?b] => let v := eval vm_compute in (a <=? b) in change (a <=? b) with v
  | |- context [?a =? ?b] => let v := eval vm_compute in (a =? b) in change (a =? b) with v
  end; cbn iota.

Definition ly (y : Z) : Z := y / 4 - y / 100 + y / 400.
Lemma ly_step y : ly y = ly (y - 1) + if leap y then 1 else 0.
Proof. pose proof (year_step y). unfold ly. lia. Qed.
Lemma ly_mono y z : y <= z -> ly y <= ly z.
Proof. intros H. unfold ly. eu. Qed.

Lemma dayno_ly y m d : dayno (Date y m d) = (if m <=? 2 then ly (y - 1) + (y - 1) * 365 else ly y + y * 365) + cum m + d - 719499.
Proof. rewrite dayno_cum. cbn [yr mo dy]. unfold ly. destruct (m <=? 2); lia. Qed.

Lemma dayno_tomorrow x : is_date x -> dayno (tomorrow x) = dayno x + 1.
Proof.
  destruct x as [y m d]. intros [Hm Hd]. unfold tomorrow. cbn [yr mo dy] in *.
  destruct (d <? month_length y m) eqn:E. { rewrite !dayno_ly. destruct (m <=? 2); lia. }
  assert (d = month_length y m) as -> by lia. clear Hd E.
  destruct (m <? 12) eqn:E.
  - rewrite !dayno_ly. pose proof (ly_step y). unfold month_length. months; closed; destruct (leap y); lia.
  - assert (m = 12) as -> by lia. rewrite !dayno_ly. replace (y + 1 - 1) with y by lia. closed. lia.
Qed.

Lemma tomorrow_date x : is_date x -> is_date (tomorrow x) /\ yr x <= yr (tomorrow x).
Proof.
  intros [Hm Hd]. unfold tomorrow. destruct (_ <? _) eqn:E; [unfold is_date; cbn [yr mo dy]; lia|].
  destruct (mo x <? 12) eqn:E2; unfold is_date; cbn [yr mo dy].
  - pose proof (month_length_pos (yr x) (mo x + 1)). lia.
  - pose proof (month_length_pos (yr x + 1) 1). lia.
Qed.

Lemma days_later_ok n : forall x, is_date x -> is_date (days_later n x) /\ dayno (days_later n x) = dayno x + Z.of_nat n.
Proof.
  induction n as [|n IH]; intros x Hx; cbn [days_later]. { split; [assumption|lia]. }
  destruct (tomorrow_date x Hx) as [H1 _]. destruct (IH _ H1) as [H2 H3]. split; [assumption|].
  rewrite H3, (dayno_tomorrow x Hx). lia.
Qed.

Lemma cum_step_bound y m m' : 1 <= m -> m < m' -> m' <= 12 ->
  (if m <=? 2 then ly (y - 1) + (y - 1) * 365 else ly y + y * 365) + cum m + month_length y m <=
  (if m' <=? 2 then ly (y - 1) + (y - 1) * 365 else ly y + y * 365) + cum m'.
Proof.
  intros H1 H2 H3. pose proof (ly_step y) as L.
  assert (forall k, 1 <= k < 12 ->
    (if k <=? 2 then ly (y - 1) + (y - 1) * 365 else ly y + y * 365) + cum k + month_length y k =
    (if k + 1 <=? 2 then ly (y - 1) + (y - 1) * 365 else ly y + y * 365) + cum (k + 1)) as Step.
  { intros k Hk. unfold month_length. assert (1 <= k <= 12) as Hk' by lia.
    months; try lia; closed; destruct (leap y); lia. }
  remember (Z.to_nat (m' - m - 1)) as n eqn:En. revert m' H2 H3 En. induction n as [|n IH]; intros m' H2 H3 En.
  - assert (m' = m + 1) as -> by lia. rewrite Step by lia. lia.
  - specialize (IH (m' - 1)). specialize (Step (m' - 1)).
    replace (m' - 1 + 1) with m' in Step by lia. pose proof (month_length_pos y (m' - 1)). lia.
Qed.

Lemma dayno_before a b : is_date a -> is_date b -> before a b -> dayno a < dayno b.
Proof.
  destruct a as [y m d], b as [y' m' d']. intros [Hm Hd] [Hm' Hd'] Hb. unfold before in Hb. cbn [yr mo dy] in *.
  rewrite !dayno_ly.
  assert (forall k e, 1 <= k <= 12 -> e <= month_length y k ->
    (if k <=? 2 then ly (y - 1) + (y - 1) * 365 else ly y + y * 365) + cum k + e <= ly y + y * 365 + cum 12 + 31) as Up.
  { intros k e Hk He. destruct (Z.eq_dec k 12) as [->|Hn].
    - change (12 <=? 2) with false. cbn iota. change (month_length y 12) with 31 in He. lia.
    - pose proof (cum_step_bound y k 12 ltac:(lia) ltac:(lia) ltac:(lia)) as H. change (12 <=? 2) with false in H. cbn iota in H. lia. }
  assert (forall k, 1 <= k <= 12 ->
    ly (y' - 1) + (y' - 1) * 365 + cum 1 <= (if k <=? 2 then ly (y' - 1) + (y' - 1) * 365 else ly y' + y' * 365) + cum k) as Lo.
  { intros k Hk. destruct (Z.eq_dec k 1) as [->|Hn]. { change (1 <=? 2) with true. cbn iota. lia. }
    pose proof (cum_step_bound y' 1 k ltac:(lia) ltac:(lia) ltac:(lia)) as H. change (1 <=? 2) with true in H. cbn iota in H.
    change (month_length y' 1) with 31 in H. lia. }
  destruct Hb as [Hy|[<- [Hmm|[<- Hdd]]]].
  - specialize (Up m d Hm ltac:(lia)). specialize (Lo m' Hm').
    pose proof (ly_mono y (y' - 1) ltac:(lia)).
    change (cum 12) with 305 in Up. change (cum 1) with 336 in Lo. nia.
  - pose proof (cum_step_bound y m m' ltac:(lia) ltac:(lia) ltac:(lia)). lia.
  - lia.
Qed.

Lemma before_total a b : before a b \/ a = b \/ before b a.
Proof.
  destruct a as [y m d], b as [y' m' d']. unfold before; cbn [yr mo dy].
  destruct (Z.lt_trichotomy y y') as [|[<-|]]; [lia| |lia].
  destruct (Z.lt_trichotomy m m') as [|[<-|]]; [lia| |lia].
  destruct (Z.lt_trichotomy d d') as [|[<-|]]; [lia|auto|lia].
Qed.

Lemma dayno_inj a b : is_date a -> is_date b -> dayno a = dayno b -> a = b.
Proof.
  intros Ha Hb E. destruct (before_total a b) as [H|[H|H]]; [|assumption|].
  - pose proof (dayno_before a b Ha Hb H). lia.
  - pose proof (dayno_before b a Hb Ha H). lia.
Qed.

Lemma apart_iff a b n : is_date a -> is_date b -> apart_by a b n <-> dayno b = dayno a + n.
Proof.
  intros Ha Hb. unfold apart_by. split.
  - intros [[Hn <-]|[Hn <-]].
    + destruct (days_later_ok (Z.to_nat n) a Ha). lia.
    + destruct (days_later_ok (Z.to_nat (- n)) b Hb). lia.
  - intros E. destruct (Z_lt_dec n 0) as [Hn|Hn].
    + right. split; [assumption|]. destruct (days_later_ok (Z.to_nat (- n)) b Hb). apply dayno_inj; [assumption..|lia].
    + left. split; [lia|]. destruct (days_later_ok (Z.to_nat n) a Ha). apply dayno_inj; [assumption..|lia].
Qed.

Lemma epoch_date : is_date epoch.
Proof. unfold is_date. cbn -[Z.le]. lia. Qed.
Lemma dayno_epoch : dayno epoch = 0.
Proof. reflexivity. Qed.

Lemma apart_exists_lemma a b : is_date a -> is_date b -> exists n, apart_by a b n /\ (before a b <-> 0 < n) /\ forall n', apart_by a b n' -> n' = n.
Proof.
  intros Ha Hb. exists (dayno b - dayno a). split; [|split].
  - apply apart_iff; [assumption..|lia].
  - split; intros H. { pose proof (dayno_before a b Ha Hb H). lia. }
    destruct (before_total a b) as [K|[->|K]]; [assumption|lia|]. pose proof (dayno_before b a Hb Ha K). lia.
  - intros n' H. apply apart_iff in H; [lia|assumption..].
Qed.

Lemma arith_ok p z : tmin p <= z <= tmax p -> sgn p = true -> arith p z = Ok z.
Proof. intros H E. unfold arith. rewrite E. replace ((tmin p <=? z) && (z <=? tmax p)) with true by lia. reflexivity. Qed.

Lemma impl_ok y m d h mi s : 0 <= y <= 5883516 -> 1 <= m <= 12 -> 1 <= d <= 31 -> is_int h -> is_int mi -> is_int s ->
  to_time_t_impl y m d h mi s =
  Ok ((y / 4 - y / 100 + y / 400 + 367 * m / 12 + d + y * 365 - 719499) * 86400 + 3600 * h + 60 * mi + s).
Proof.
  intros Hy Hm Hd Hh Hmi Hs. unfold is_int in *. change (tmin (Ity true 2)) with (-2147483648) in *. change (tmax (Ity true 2)) with 2147483647 in *.
  unfold to_time_t_impl.
  rewrite !(Z.quot_div_nonneg y) by lia.
  assert (0 <= y / 4 <= 1470879) as H4 by eu. assert (0 <= y / 100 <= 58835) as H1 by eu. assert (0 <= y / 400 <= 14708) as H3 by eu.
  assert (0 <= 367 * m / 12 <= 367) as Hc by eu.
  assert (tmin i32 = -2147483648) as A1 by reflexivity. assert (tmax i32 = 2147483647) as A2 by reflexivity.
  assert (tmin time_t = -9223372036854775808) as A3 by reflexivity. assert (tmax time_t = 9223372036854775807) as A4 by reflexivity.
  repeat (rewrite arith_ok; [cbn [bind]; try rewrite (Z.quot_div_nonneg (367 * m)) by lia|rewrite ?A1, ?A2, ?A3, ?A4; lia|reflexivity]).
  f_equal. lia.
Qed.

Lemma to_time_t_dayno x h mi s : is_date x -> year_ok (yr x) -> is_int h -> is_int mi -> is_int s ->
  to_time_t (yr x) (mo x) (dy x) h mi s = Ok (86400 * dayno x + 3600 * h + 60 * mi + s).
Proof.
  destruct x as [y m d]. intros [Hm Hd] Hy Hh Hmi Hs. unfold year_ok in Hy. cbn [yr mo dy] in *.
  pose proof (month_length_pos y m) as ML.
  assert (tmin i32 = -2147483648) as A1 by reflexivity. assert (tmax i32 = 2147483647) as A2 by reflexivity.
  unfold to_time_t. rewrite dayno_cum. cbn [yr mo dy]. unfold cum. destruct (m <=? 2) eqn:E.
  - rewrite !arith_ok by (try reflexivity; lia). cbn [bind]. rewrite impl_ok by (try assumption; lia). f_equal. lia.
  - rewrite !arith_ok by (try reflexivity; lia). cbn [bind]. rewrite impl_ok by (try assumption; lia). f_equal. lia.
Qed.

Lemma to_time_t_lemma x h mi s n : is_date x -> year_ok (yr x) -> is_int h -> is_int mi -> is_int s ->
  apart_by epoch x n -> to_time_t (yr x) (mo x) (dy x) h mi s = Ok (86400 * n + 3600 * h + 60 * mi + s).
Proof.
  intros Hx Hy Hh Hmi Hs Ha. apply apart_iff in Ha; [|apply epoch_date|assumption]. rewrite dayno_epoch in Ha.
  rewrite to_time_t_dayno by assumption. f_equal. lia.
Qed.

Lemma tm_lemma t n : let x := Date (tm_year t + 1900) (tm_mon t + 1) (tm_mday t) in
  is_date x -> year_ok (yr x) -> is_int (tm_hour t) -> is_int (tm_min t) -> is_int (tm_sec t) ->
  apart_by epoch x n -> tm_to_time_t t = Ok (86400 * n + 3600 * tm_hour t + 60 * tm_min t + tm_sec t).
Proof.
  intros x Hx Hy Hh Hmi Hs Ha. unfold tm_to_time_t.
  assert (tmin i32 = -2147483648) as A1 by reflexivity. assert (tmax i32 = 2147483647) as A2 by reflexivity.
  pose proof Hx as [Hm _]. unfold year_ok in Hy. subst x. cbn [yr mo dy] in *.
  rewrite !arith_ok by (try reflexivity; lia). cbn [bind].
  exact (to_time_t_lemma (Date (tm_year t + 1900) (tm_mon t + 1) (tm_mday t)) _ _ _ n Hx Hy Hh Hmi Hs Ha).
Qed.

Lemma order_lemma a b h mi s h' mi' s' ta tb : is_date a -> is_date b -> year_ok (yr a) -> year_ok (yr b) ->
  is_time h mi s -> is_time h' mi' s' ->
  to_time_t (yr a) (mo a) (dy a) h mi s = Ok ta -> to_time_t (yr b) (mo b) (dy b) h' mi' s' = Ok tb ->
  (ta < tb <-> before a b \/ (a = b /\ time_before h mi s h' mi' s')).
Proof.
  intros Ha Hb Hya Hyb Ht Ht' Ea Eb. unfold is_time in *.
  assert (tmin (Ity true 2) = -2147483648) as A1 by reflexivity. assert (tmax (Ity true 2) = 2147483647) as A2 by reflexivity.
  rewrite to_time_t_dayno in Ea by (try assumption; unfold is_int; rewrite A1, A2; lia).
  rewrite to_time_t_dayno in Eb by (try assumption; unfold is_int; rewrite A1, A2; lia).
  assert (forall x y : Z, Ok x = Ok y -> y = x) as Inj by congruence. apply Inj in Ea. apply Inj in Eb. subst ta tb. unfold time_before.
  destruct (before_total a b) as [H|[->|H]].
  - pose proof (dayno_before a b Ha Hb H). split; intros; [tauto|lia].
  - split; intros H; [right; split; [reflexivity|lia]|].
    destruct H as [H|[_ H]]; [unfold before in H; lia|lia].
  - pose proof (dayno_before b a Hb Ha H). split; intros K; [lia|]. unfold before in *.
    destruct K as [K|[-> _]]; lia.
Qed.

Lemma year_zero_refuted_lemma : to_time_t 0 2 29 0 0 0 = to_time_t 0 3 1 0 0 0 /\ is_date (Date 0 2 29) /\ tomorrow (Date 0 2 29) = Date 0 3 1.
Proof. repeat split; try (vm_compute; congruence). Qed.

Lemma late_year_refuted_lemma : to_time_t 5883517 3 1 0 0 0 = UB.
Proof. reflexivity. Qed.
