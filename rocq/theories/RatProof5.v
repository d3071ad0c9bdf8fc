From Coq Require Import List Arith ZArith QArith Bool Lia.
From Coq Require Import ZifyBool ZifyNat.
From Verif Require Import Base BitModel BitSpec BitProof CharProof RatModel RatSpec RatProof RatProof2 RatProof3 RatProof4.
Open Scope Z_scope.

(** comparing q1 + r1/d1 with q2 + r2/d2 *)
Lemma cmp_q q1 r1 d1 q2 r2 d2 : 0 <= r1 < d1 -> 0 <= r2 < d2 -> q1 < q2 -> (q1 * d1 + r1) * d2 < (q2 * d2 + r2) * d1.
Proof.
  intros H1 H2 H. assert (A : (q1 * d1 + r1) * d2 < (q1 + 1) * d1 * d2) by (apply Z.mul_lt_mono_pos_r; lia).
  assert (B : (q1 + 1) * d1 * d2 <= q2 * d2 * d1).
  { replace ((q1 + 1) * d1 * d2) with ((q1 + 1) * (d1 * d2)) by ring. replace (q2 * d2 * d1) with (q2 * (d1 * d2)) by ring.
    apply Z.mul_le_mono_nonneg_r; nia. }
  assert (C : q2 * d2 * d1 <= (q2 * d2 + r2) * d1) by (apply Z.mul_le_mono_nonneg_r; lia). lia.
Qed.

Section L.
  Variable t : ity.

  Lemma cdiv_nn x y : 0 < y -> cdiv t x y = Ok (Z.quot x y).
  Proof. intros P. unfold cdiv. destruct (Z.eqb_spec y 0), (Z.eqb_spec y (-1)); try lia. now rewrite andb_false_r. Qed.
  Lemma crem_nn x y : 0 < y -> crem t x y = Ok (Z.rem x y).
  Proof. intros P. unfold crem. destruct (Z.eqb_spec y 0), (Z.eqb_spec y (-1)); try lia. now rewrite andb_false_r. Qed.

  Lemma less2 : forall (f : nat) (d1 q1 r1 d2 q2 r2 : Z) (rev : bool) (k : nat),
    0 <= r1 < d1 -> 0 <= r2 < d2 -> r1 * d1 < 2 ^ Z.of_nat k -> (k < f)%nat ->
    less_impl_2 t f d1 q1 r1 d2 q2 r2 rev =
      Ok (if rev then (q2 * d2 + r2) * d1 <? (q1 * d1 + r1) * d2 else (q1 * d1 + r1) * d2 <? (q2 * d2 + r2) * d1).
  Proof.
    induction f as [|f IH]; intros d1 q1 r1 d2 q2 r2 rev k H1 H2 Hk Hf; [lia|]. cbn [less_impl_2].
    destruct (Z.eqb_spec q1 q2) as [<- | N]; cbn [negb].
    2:{ f_equal. assert (C : q1 < q2 \/ q2 < q1) by lia. destruct C as [C|C].
        - assert (K := cmp_q q1 r1 d1 q2 r2 d2 H1 H2 C). destruct rev; lia.
        - assert (K := cmp_q q2 r2 d2 q1 r1 d1 H2 H1 C). destruct rev; lia. }
    assert (R : ((q1 * d1 + r1) * d2 <? (q1 * d2 + r2) * d1) = (r1 * d2 <? r2 * d1)).
    { replace ((q1 * d1 + r1) * d2) with (q1 * d1 * d2 + r1 * d2) by ring. replace ((q1 * d2 + r2) * d1) with (q1 * d1 * d2 + r2 * d1) by ring. lia. }
    assert (R' : ((q1 * d2 + r2) * d1 <? (q1 * d1 + r1) * d2) = (r2 * d1 <? r1 * d2)).
    { replace ((q1 * d1 + r1) * d2) with (q1 * d1 * d2 + r1 * d2) by ring. replace ((q1 * d2 + r2) * d1) with (q1 * d1 * d2 + r2 * d1) by ring. lia. }
    rewrite R, R'. clear R R'.
    destruct (Z.eqb_spec r1 0) as [Z1|N1].
    { cbn [orb]. f_equal. subst r1. destruct (Z.eqb_spec 0 r2) as [E|E]; [subst r2; destruct rev; lia|].
      assert (0 < r2 * d1) by nia. destruct rev; cbn [negb Bool.eqb]; lia. }
    destruct (Z.eqb_spec r2 0) as [Z2|N2].
    { cbn [orb]. f_equal. subst r2. destruct (Z.eqb_spec r1 0) as [E|E]; [lia|].
      assert (0 < r1 * d2) by nia. destruct rev; cbn [negb Bool.eqb]; lia. }
    cbn [orb]. rewrite !cdiv_nn, !crem_nn by lia. cbn [bind].
    pose proof (Z.rem_bound_pos d1 r1 ltac:(lia) ltac:(lia)) as B1. pose proof (Z.rem_bound_pos d2 r2 ltac:(lia) ltac:(lia)) as B2.
    pose proof (Z.quot_rem' d1 r1) as Q1. pose proof (Z.quot_rem' d2 r2) as Q2.
    assert (P1 : 1 <= Z.quot d1 r1) by (apply Z.quot_le_lower_bound; lia).
    destruct k as [|k]; [change (2 ^ Z.of_nat 0) with 1 in Hk; nia|].
    rewrite Nat2Z.inj_succ, Z.pow_succ_r in Hk by lia.
    assert (Hh : 2 * Z.rem d1 r1 < d1) by nia.
    rewrite (IH _ _ _ _ _ _ _ k); [|exact B1|exact B2|nia|lia]. f_equal.
    replace (Z.quot d1 r1 * r1 + Z.rem d1 r1) with d1 by lia. replace (Z.quot d2 r2 * r2 + Z.rem d2 r2) with d2 by lia.
    destruct rev; cbn [negb]; lia.
  Qed.

End L.

  (** trunc division corrected to floor division *)
  Lemma floor_neg n d : 0 < d -> Z.rem n d < 0 -> Z.quot n d - 1 = n / d /\ Z.rem n d + d = n mod d.
  Proof.
    intros P N. pose proof (Z.quot_rem' n d) as Q. pose proof (Z.rem_bound_abs n d ltac:(lia)) as B.
    assert (E : n = d * (Z.quot n d - 1) + (Z.rem n d + d)) by lia.
    split; [apply (Z.div_unique_pos _ _ _ (Z.rem n d + d))|apply (Z.mod_unique_pos _ _ (Z.quot n d - 1))]; lia.
  Qed.
  Lemma floor_pos n d : 0 < d -> 0 <= Z.rem n d -> Z.quot n d = n / d /\ Z.rem n d = n mod d.
  Proof.
    intros P N. pose proof (Z.quot_rem' n d) as Q. pose proof (Z.rem_bound_abs n d ltac:(lia)) as B.
    split; [apply (Z.div_unique_pos _ _ _ (Z.rem n d))|apply (Z.mod_unique_pos _ _ (Z.quot n d))]; lia.
  Qed.

Section R.
  Variable il : nat.
  Variable t : ity.
  Variable r : nat.
  Hypothesis Hw : wide il t.
  Hypothesis Hr : 6 * wid t + 1 <= Z.of_nat r.
  Notation arith_in := (arith_in il t r Hw).
  Notation rat_bounds := (rat_bounds il t r Hw).

  (** q - 1 and s + d do not overflow *)
  Lemma adjust x : is_rat t x -> Z.rem (fst x) (snd x) < 0 ->
    arith t (Z.quot (fst x) (snd x) - 1) = Ok (fst x / snd x) /\ arith t (Z.rem (fst x) (snd x) + snd x) = Ok (fst x mod snd x) /\
    - tmax t - 1 <= fst x / snd x <= -1.
  Proof.
    intros Hx N. destruct (rat_bounds x Hx) as (Bn & Bd & _). destruct (floor_neg (fst x) (snd x)) as [E1 E2]; [lia|exact N|].
    pose proof (Z.quot_rem' (fst x) (snd x)) as Q. pose proof (Z.rem_bound_abs (fst x) (snd x) ltac:(lia)) as B.
    assert (Nn : fst x < 0).
    { destruct (Z_lt_ge_dec (fst x) 0); [assumption|]. pose proof (Z.rem_nonneg (fst x) (snd x) ltac:(lia) ltac:(lia)). lia. }
    set (q := Z.quot (fst x) (snd x)) in *. assert (Q0 : q <= 0) by nia. assert (Q1 : - tmax t - 1 < q) by nia. clearbody q.
    pose proof (Z.mod_pos_bound (fst x) (snd x) ltac:(lia)).
    rewrite E1, E2. rewrite !arith_in by lia. split; [reflexivity|]. split; [reflexivity|]. lia.
  Qed.

  Lemma less_floor x y : is_rat t x -> is_rat t y ->
    less_rr t r x y = Ok (fst x * snd y <? fst y * snd x).
  Proof.
    intros Hx Hy. destruct (rat_bounds x Hx) as (Bn1 & Bd1 & _), (rat_bounds y Hy) as (Bn2 & Bd2 & _). pose proof (wid_ge t) as W.
    unfold less_rr. rewrite cdiv_nn, crem_nn by lia. cbn [bind].
    assert (Main : forall f, 2 * wid t <= Z.of_nat f ->
      less_impl_2 t f (snd x) (fst x / snd x) (fst x mod snd x) (snd y) (fst y / snd y) (fst y mod snd y) false = Ok (fst x * snd y <? fst y * snd x)).
    { intros f Hf. pose proof (Z.mod_pos_bound (fst x) (snd x) ltac:(lia)) as M1. pose proof (Z.mod_pos_bound (fst y) (snd y) ltac:(lia)) as M2.
      rewrite (less2 t f _ _ _ _ _ _ false (Z.to_nat (2 * wid t - 1))); [|exact M1|exact M2| |lia].
      - cbn [negb]. f_equal. rewrite (Z.mul_comm (fst x / snd x)), (Z.mul_comm (fst y / snd y)).
        rewrite <- (Z.div_mod (fst x) (snd x)), <- (Z.div_mod (fst y) (snd y)) by lia. reflexivity.
      - rewrite Z2Nat.id by lia. assert (T : tmax t < 2 ^ (wid t - 1)) by (destruct Hw as [S _]; unfold tmax; rewrite S; lia).
        replace (2 * wid t - 1) with ((wid t - 1) + (wid t - 1) + 1) by lia. rewrite !Z.pow_add_r by lia. change (2 ^ 1) with 2. nia. }
    assert (Second : forall f, 2 * wid t + 2 <= Z.of_nat f ->
      less_impl_1 t f (snd x) (fst x / snd x) (fst x mod snd x) (snd y) (Z.quot (fst y) (snd y)) (Z.rem (fst y) (snd y)) = Ok (fst x * snd y <? fst y * snd x)).
    { intros f Hf. destruct f as [|[|f]]; try lia. cbn [less_impl_1]. destruct (Z.ltb_spec (Z.rem (fst y) (snd y)) 0) as [L|L].
      - destruct (adjust y Hy L) as (A1 & A2 & _). rewrite A1, A2. cbn [bind]. pose proof (Z.mod_pos_bound (fst y) (snd y) ltac:(lia)).
        destruct (Z.ltb_spec (fst y mod snd y) 0); [lia|]. apply Main. lia.
      - destruct (floor_pos (fst y) (snd y)) as [E1 E2]; [lia|exact L|]. rewrite E1, E2. apply Main. lia. }
    destruct r as [|[|f]]; try lia. cbn [less_impl]. destruct (Z.ltb_spec (Z.rem (fst x) (snd x)) 0) as [L|L].
    - destruct (adjust x Hx L) as (A1 & A2 & _). rewrite A1, A2. cbn [bind]. pose proof (Z.mod_pos_bound (fst x) (snd x) ltac:(lia)).
      destruct (Z.ltb_spec (fst x mod snd x) 0); [lia|]. rewrite cdiv_nn, crem_nn by lia. cbn [bind]. apply Second. lia.
    - destruct (floor_pos (fst x) (snd x)) as [E1 E2]; [lia|exact L|]. rewrite E1, E2. rewrite cdiv_nn, crem_nn by lia. cbn [bind]. apply Second. lia.
  Qed.
  Lemma qv_lt x y : 0 < snd x -> 0 < snd y -> (qv x < qv y)%Q <-> fst x * snd y < fst y * snd x.
  Proof. intros Px Py. unfold Qlt, qv. cbn [Qnum Qden]. now rewrite !Z2Pos.id by assumption. Qed.

  Lemma less_lemma x y : is_rat t x -> is_rat t y -> exists b, less_rr t r x y = Ok b /\ (b = true <-> (qv x < qv y)%Q).
  Proof.
    intros Hx Hy. rewrite less_floor by assumption. eexists. split; [reflexivity|].
    destruct Hx as (_ & _ & Px & _), Hy as (_ & _ & Py & _). rewrite qv_lt by assumption. lia.
  Qed.
  Lemma others_lemma x y : is_rat t x -> is_rat t y ->
    (exists b, greater_rr t r x y = Ok b /\ (b = true <-> (qv y < qv x)%Q)) /\
    (exists b, le_rr t r x y = Ok b /\ (b = true <-> (qv x <= qv y)%Q)) /\
    (exists b, ge_rr t r x y = Ok b /\ (b = true <-> (qv y <= qv x)%Q)).
  Proof.
    intros Hx Hy. unfold greater_rr, le_rr, ge_rr. rewrite !less_floor by assumption. cbn [bind].
    destruct Hx as (_ & _ & Px & _), Hy as (_ & _ & Py & _).
    split; [|split]; eexists; (split; [reflexivity|]).
    - rewrite qv_lt by assumption. lia.
    - unfold Qle, qv. cbn [Qnum Qden]. rewrite !Z2Pos.id by assumption. lia.
    - unfold Qle, qv. cbn [Qnum Qden]. rewrite !Z2Pos.id by assumption. lia.
  Qed.
  Lemma eq_lemma x y : is_rat t x -> is_rat t y -> eq_rr x y = true <-> (qv x == qv y)%Q.
  Proof.
    intros Hx Hy. unfold eq_rr. rewrite andb_true_iff, !Z.eqb_eq. split.
    - intros [A B]. destruct x, y. cbn [fst snd] in *. subst. reflexivity.
    - intros E. rewrite (qv_unique t x y Hx Hy E). auto.
  Qed.
  Lemma eq_int_lemma x n : is_rat t x -> eq_ri x n = true <-> (qv x == inject_Z n)%Q.
  Proof.
    intros Hx. destruct (rat_bounds x Hx) as (_ & Bd & G). unfold eq_ri. rewrite andb_true_iff, !Z.eqb_eq.
    change (inject_Z n) with (qv (n, 1)). rewrite qv_cross by (cbn [fst snd]; lia). cbn [fst snd]. split.
    - intros [A B]. rewrite A, B. ring.
    - intros E. destruct (lowest_unique (fst x) (snd x) n 1) as [A B]; try lia; try assumption. apply Z.gcd_1_r.
  Qed.

  (** ** Comparison with an integer *)
  Lemma less_ri_good x n : is_rat t x -> 0 <= fst x \/ snd x = 1 ->
    less_ri t r x n = Ok (fst x / snd x <? n).
  Proof.
    intros Hx H. destruct (rat_bounds x Hx) as (Bn & Bd & _). unfold less_ri. rewrite cdiv_nn, crem_nn by lia. cbn [bind].
    assert (N : 0 <= Z.rem (fst x) (snd x)).
    { destruct H as [H|H]; [apply Z.rem_nonneg; lia|]. rewrite H, Z.rem_1_r. lia. }
    destruct (floor_pos (fst x) (snd x)) as [E1 E2]; [lia|exact N|]. rewrite E1, E2. rewrite E2 in N.
    pose proof (wid_ge t). destruct r as [|f]; [lia|]. cbn [less_impl_ri]. destruct (Z.ltb_spec (fst x mod snd x) 0); [lia|reflexivity].
  Qed.
  Lemma neg_rem x : is_rat t x -> fst x < 0 -> snd x <> 1 -> Z.rem (fst x) (snd x) < 0.
  Proof.
    intros Hx N D. destruct (rat_bounds x Hx) as (Bn & Bd & G).
    pose proof (Z.rem_bound_abs (fst x) (snd x) ltac:(lia)) as B.
    assert (Z.rem (fst x) (snd x) <= 0) by (apply Z.rem_nonpos; lia).
    assert (Z.rem (fst x) (snd x) <> 0); [|lia]. intros E. apply Z.rem_divide in E; [|lia].
    assert (Dv : (snd x | 1)) by (rewrite <- G; apply Z.gcd_greatest; [exact E|apply Z.divide_refl]).
    apply Z.divide_1_r_nonneg in Dv; lia.
  Qed.
  Lemma less_ri_bad x n : is_rat t x -> fst x < 0 -> snd x <> 1 ->
    less_ri t r x n = Ok (fst x / snd x + snd x <? n).
  Proof.
    intros Hx N D. destruct (rat_bounds x Hx) as (Bn & Bd & G). unfold less_ri. rewrite cdiv_nn, crem_nn by lia. cbn [bind].
    assert (L := neg_rem x Hx N D). destruct (adjust x Hx L) as (A1 & A2 & A3). pose proof (wid_ge t).
    pose proof (Z.mod_pos_bound (fst x) (snd x) ltac:(lia)) as M. destruct (floor_neg (fst x) (snd x)) as [E1 E2]; [lia|exact L|].
    assert (M1 : 1 <= fst x mod snd x).
    { rewrite <- E2. pose proof (Z.rem_bound_abs (fst x) (snd x) ltac:(lia)). lia. }
    destruct r as [|[|f]]; try lia. cbn [less_impl_ri]. destruct (Z.ltb_spec (Z.rem (fst x) (snd x)) 0); [|lia].
    rewrite A2. cbn [bind]. rewrite A1. cbn [bind]. destruct (Z.ltb_spec (fst x / snd x) 0); [|lia].
    rewrite arith_in by lia. cbn [bind]. rewrite arith_in by lia. cbn [bind].
    destruct f as [|f]; [lia|]. cbn [less_impl_ri]. destruct (Z.ltb_spec (fst x mod snd x - 1) 0); [lia|reflexivity].
  Qed.
  Lemma floor_lt x n : 0 < snd x -> (fst x / snd x < n) <-> (qv x < inject_Z n)%Q.
  Proof.
    intros P. change (inject_Z n) with (qv (n, 1)). rewrite qv_lt by (cbn [fst snd]; lia). cbn [fst snd]. rewrite Z.mul_1_r.
    pose proof (Z.div_mod (fst x) (snd x) ltac:(lia)). pose proof (Z.mod_pos_bound (fst x) (snd x) P).
    split; intros H'; nia.
  Qed.
  (** the comparison is right exactly outside the window floor(x) < n <= floor(x) + den *)
  Lemma less_ri_lemma x n : is_rat t x ->
    (0 <= fst x \/ snd x = 1 \/ ~ (fst x / snd x < n <= fst x / snd x + snd x)) ->
    exists b, less_ri t r x n = Ok b /\ (b = true <-> (qv x < inject_Z n)%Q).
  Proof.
    intros Hx H. destruct (rat_bounds x Hx) as (Bn & Bd & G). destruct (Z_lt_ge_dec (fst x) 0) as [L|L].
    2:{ rewrite less_ri_good by (auto; lia). eexists. split; [reflexivity|]. rewrite <- floor_lt by lia. lia. }
    destruct (Z.eq_dec (snd x) 1) as [E|E].
    { rewrite less_ri_good by auto. eexists. split; [reflexivity|]. rewrite <- floor_lt by lia. lia. }
    rewrite less_ri_bad by assumption. eexists. split; [reflexivity|]. rewrite <- floor_lt by lia. lia.
  Qed.
  Lemma less_ri_wrong x n : is_rat t x -> fst x < 0 -> snd x <> 1 -> fst x / snd x < n <= fst x / snd x + snd x ->
    less_ri t r x n = Ok false /\ (qv x < inject_Z n)%Q.
  Proof.
    intros Hx N D H. destruct (rat_bounds x Hx) as (Bn & Bd & G). rewrite less_ri_bad by assumption. rewrite <- floor_lt by lia.
    split; [f_equal; lia|lia].
  Qed.
  Lemma neg_window x : is_rat t x -> fst x < 0 -> snd x <> 1 -> fst x / snd x < 0 -> eq_ri x 0 = false.
  Proof. intros _ _ H _. unfold eq_ri. destruct (Z.eqb_spec (snd x) 1); [contradiction|reflexivity]. Qed.

  Lemma less_ir_lemma x n : is_rat t x ->
    (0 <= fst x \/ snd x = 1 \/ ~ (fst x / snd x < n <= fst x / snd x + snd x)) ->
    exists b, less_ir t r n x = Ok b /\ (b = true <-> (inject_Z n < qv x)%Q).
  Proof.
    intros Hx H. destruct (less_ri_lemma x n Hx H) as (b & E & B). unfold less_ir.
    pose proof (eq_int_lemma x n Hx) as Q. destruct (eq_ri x n); cbn [negb].
    - exists false. split; [reflexivity|]. split; [discriminate|]. intros L. rewrite (proj1 Q eq_refl) in L. now apply Qlt_irrefl in L.
    - rewrite E. cbn [bind]. exists (negb b). split; [reflexivity|]. rewrite negb_true_iff. split.
      + intros ->. destruct (Q_dec (qv x) (inject_Z n)) as [[L|L]|L]; [apply B in L; discriminate|exact L|apply Q in L; discriminate].
      + intros L. destruct b; [|reflexivity]. exfalso. apply (Qlt_irrefl (qv x)). eapply Qlt_trans; [apply B; reflexivity|exact L].
  Qed.
  Lemma less_ir_wrong x n : is_rat t x -> fst x < 0 -> snd x <> 1 -> fst x / snd x < n <= fst x / snd x + snd x ->
    less_ir t r n x = Ok true /\ (qv x < inject_Z n)%Q.
  Proof.
    intros Hx N D H. destruct (less_ri_wrong x n Hx N D H) as [E Q]. split; [|exact Q]. unfold less_ir, eq_ri.
    destruct (Z.eqb_spec (snd x) 1); [lia|]. cbn [andb negb]. rewrite E. reflexivity.
  Qed.
  Lemma others_ri_lemma x n : is_rat t x ->
    (0 <= fst x \/ snd x = 1 \/ ~ (fst x / snd x < n <= fst x / snd x + snd x)) ->
    (exists b, greater_ri t r x n = Ok b /\ (b = true <-> (inject_Z n < qv x)%Q)) /\
    (exists b, le_ri t r x n = Ok b /\ (b = true <-> (qv x <= inject_Z n)%Q)) /\
    (exists b, ge_ri t r x n = Ok b /\ (b = true <-> (inject_Z n <= qv x)%Q)).
  Proof.
    intros Hx H. destruct (less_ri_lemma x n Hx H) as (b & E & B). destruct (less_ir_lemma x n Hx H) as (b' & E' & B').
    unfold greater_ri, le_ri, ge_ri. split; [exists b'; split; [exact E'|exact B']|]. split.
    - rewrite E'. cbn [bind]. exists (negb b'). split; [reflexivity|]. rewrite negb_true_iff. split.
      + intros ->. apply Qnot_lt_le. intros L. apply B' in L. discriminate.
      + intros L. destruct b'; [|reflexivity]. exfalso. apply (Qle_not_lt _ _ L). now apply B'.
    - rewrite E. cbn [bind]. exists (negb b). split; [reflexivity|]. rewrite negb_true_iff. split.
      + intros ->. apply Qnot_lt_le. intros L. apply B in L. discriminate.
      + intros L. destruct b; [|reflexivity]. exfalso. apply (Qle_not_lt _ _ L). now apply B.
  Qed.
End R.
