From Coq Require Import List Arith ZArith Bool Lia Znumtheory.
From Coq Require Import ZifyBool ZifyNat.
From Verif Require Import Base BitModel BitSpec BitProof CharProof RatModel RatSpec RatProof.
Open Scope Z_scope.

(** ** gcd_euclidean and lcm *)
Definition okv (t : ity) (x : Z) : Prop := is_val t x /\ Z.abs x <= tmax t.

Lemma quot_exact x y k : y <> 0 -> x = y * k -> Z.quot x y = k.
Proof. intros N ->. rewrite Z.mul_comm. now apply Z.quot_mul. Qed.
Lemma gcd_rem' a b : a <> 0 -> Z.gcd (Z.rem b a) a = Z.gcd a b.
Proof.
  intros N. rewrite (Z.quot_rem' b a) at 2. rewrite Z.add_comm, (Z.mul_comm a), Z.gcd_add_mult_diag_r. apply Z.gcd_comm.
Qed.
Lemma promote_unmin il t x : okv t x -> sgn (promote il t) && (x =? tmin (promote il t)) = false.
Proof.
  intros [V B]. destruct (sgn (promote il t)) eqn:S; [|reflexivity]. cbn [andb]. apply Z.eqb_neq.
  pose proof (tmin_tmax _ S). pose proof (tmax_promote il t). lia.
Qed.
Lemma crem_ok il t x y : okv t x -> y <> 0 -> crem (promote il t) x y = Ok (Z.rem x y).
Proof.
  intros V N. unfold crem. rewrite (promote_unmin il t x V). destruct (Z.eqb_spec y 0); [lia|reflexivity].
Qed.
Lemma cdiv_ok il t x y : okv t x -> y <> 0 -> cdiv (promote il t) x y = Ok (Z.quot x y).
Proof.
  intros V N. unfold cdiv. rewrite (promote_unmin il t x V). destruct (Z.eqb_spec y 0); [lia|reflexivity].
Qed.
Lemma okv_range t x : okv t x <-> (if sgn t then Z.abs x <= tmax t else 0 <= x <= tmax t).
Proof.
  unfold okv, is_val, tmax. destruct (sgn t); split; intros H; try lia.
Qed.
Lemma okv_rem t x y : okv t x -> okv t y -> y <> 0 -> okv t (Z.rem x y).
Proof.
  rewrite !okv_range. intros Hx Hy N. pose proof (Z.rem_bound_abs x y N).
  destruct (sgn t); [lia|]. pose proof (Z.rem_nonneg x y N ltac:(lia)). lia.
Qed.
Lemma rem_half a m : m <> 0 -> Z.abs m < Z.abs a -> 2 * Z.abs (Z.rem a m) < Z.abs a.
Proof.
  intros N H. rewrite <- Z.rem_abs by exact N. set (x := Z.abs a) in *. assert (M : 0 < Z.abs m) by lia. set (y := Z.abs m) in *.
  rewrite Z.rem_mod_nonneg by lia. pose proof (Z.mod_pos_bound x y M). pose proof (Z.div_mod x y ltac:(lia)).
  assert (1 <= x / y) by (apply Z.div_le_lower_bound; lia). nia.
Qed.

Lemma eucl il t : forall (r : nat) (a b : Z) (k : nat), okv t a -> okv t b -> Z.abs a < 2 ^ Z.of_nat k -> (k < r)%nat ->
  exists g, gcd_euclidean il t r a b = Ok g /\ okv t g /\ Z.abs g = Z.gcd a b.
Proof.
  induction r as [|r IH]; intros a b k Ha Hb Hk Hr; [lia|]. cbn [gcd_euclidean].
  destruct (Z.eqb_spec a 0) as [-> | N].
  { exists b. split; [reflexivity|]. split; [exact Hb|reflexivity]. }
  rewrite crem_ok by assumption. cbn [bind]. assert (Hm := okv_rem t b a Hb Ha N).
  assert (G := gcd_rem' a b N). pose proof (Z.rem_bound_abs b a N) as R.
  destruct (Z.eqb_spec (Z.rem b a) 0) as [E|E].
  { exists a. rewrite <- G, E. split; [reflexivity|]. split; [exact Ha|reflexivity]. }
  rewrite (conv_id t (Z.rem b a)) by apply Hm. rewrite crem_ok by assumption. cbn [bind].
  set (m := Z.rem b a) in *. clearbody m. assert (Hx := okv_rem t a m Ha Hm E). rewrite (conv_id t (Z.rem a m)) by apply Hx.
  pose proof (rem_half a m E R) as Hh.
  destruct k as [|k]; [change (2 ^ Z.of_nat 0) with 1 in Hk; lia|].
  rewrite Nat2Z.inj_succ, Z.pow_succ_r in Hk by lia.
  destruct (IH (Z.rem a m) m k Hx Hm ltac:(lia) ltac:(lia)) as (g & Eg & Og & Ag).
  exists g. split; [exact Eg|]. split; [exact Og|]. rewrite Ag, <- G. rewrite (gcd_rem' m a E). reflexivity.
Qed.

Lemma lcm_factor a b g q : Z.abs g = Z.gcd a b -> g <> 0 -> a = g * q -> Z.abs (q * b) = Z.lcm a b.
Proof.
  intros A N E. unfold Z.lcm. rewrite <- A. assert (D : (Z.gcd a b | b)) by apply Z.gcd_divide_r. rewrite <- A in D.
  destruct D as [b' Eb]. rewrite Eb. rewrite Z.div_mul by lia. rewrite E, !Z.abs_mul, Z.abs_involutive. lia.
Qed.
Lemma lcm_ge a b : a <> 0 -> b <> 0 -> Z.abs a <= Z.lcm a b.
Proof.
  intros Na Nb. apply Z.divide_pos_le.
  - pose proof (Z.lcm_nonneg a b). assert (Z.lcm a b <> 0) by (rewrite Z.lcm_eq_0; tauto). lia.
  - apply Z.divide_abs_l, Z.divide_lcm_l.
Qed.
Lemma wide_lcm il t : forall q b, okv t q -> Z.abs (q * b) <= tmax t -> (sgn t = false -> 0 <= b) ->
  arith (promote il t) (q * b) = Ok (q * b) /\ okv t (q * b).
Proof.
  intros q b Hq Hz Hb. rewrite okv_range in *. destruct (sgn t) eqn:S.
  - split; [|exact Hz]. destruct (Z_le_gt_dec 0 (q * b)); [apply arith_pos; lia|].
    replace (q * b) with (- - (q * b)) by lia. apply arith_neg; [exact S|lia].
  - specialize (Hb eq_refl). assert (0 <= q * b) by nia. split; [apply arith_pos; lia|lia].
Qed.
Lemma okv_quot t x y : okv t x -> okv t y -> y <> 0 -> okv t (Z.quot x y).
Proof.
  rewrite !okv_range. intros Hx Hy N. assert (B : Z.abs (Z.quot x y) <= Z.abs x).
  { rewrite <- Z.quot_abs by exact N. rewrite Z.quot_div_nonneg by lia. apply Z.div_le_upper_bound; [lia|]. nia. }
  destruct (sgn t); [lia|]. pose proof (Z.quot_pos x y ltac:(lia) ltac:(lia)). lia.
Qed.

Lemma lcm_lemma il t r a b : is_val t a -> is_val t b -> Z.lcm a b <= tmax t -> wid t + 1 <= Z.of_nat r ->
  lcm il t r a b = Ok (Z.lcm a b).
Proof.
  intros Va Vb Hl Hr. pose proof (wid_ge t) as W. unfold lcm, lcm_euclidean.
  destruct (Z.eq_dec a 0) as [-> | Na].
  { rewrite Z.lcm_0_l. destruct r as [|r]; [lia|]. cbn [gcd_euclidean]. cbn [Z.eqb bind].
    destruct (Z.eqb_spec b 0) as [-> | Nb]; cbn [negb bind]; [now rewrite andb_false_r|].
    rewrite cdiv_ok; [|rewrite okv_range; pose proof (tmax_ge t); destruct (sgn t); lia|exact Nb].
    rewrite Z.quot_0_l by exact Nb. cbn [bind]. rewrite Z.mul_0_l, arith_pos by (pose proof (tmax_ge t); lia).
    cbn [bind]. rewrite conv_id by apply val_0. cbn. now rewrite andb_false_r. }
  destruct (Z.eq_dec b 0) as [-> | Nb].
  { rewrite Z.lcm_0_r. destruct r as [|r]; [lia|]. cbn [gcd_euclidean]. destruct (Z.eqb_spec a 0); [lia|].
    rewrite crem_ok; [|rewrite okv_range; pose proof (tmax_ge t); destruct (sgn t); lia|exact Na].
    rewrite Z.rem_0_l by exact Na. cbn [bind Z.eqb]. destruct (Z.eqb_spec a 0); [lia|]. cbn [negb].
    unfold cdiv. destruct (Z.eqb_spec a 0); [lia|]. cbn [orb].
    assert (M : (a =? tmin (promote il t)) && (a =? -1) = false).
    { destruct (Z.eqb_spec a (-1)) as [-> |]; [|now rewrite andb_false_r]. rewrite andb_true_r. apply Z.eqb_neq.
      unfold tmin. pose proof (wid_ge (promote il t)). pose proof (pow_strict 0 (wid (promote il t) - 1)). change (2 ^ 0) with 1 in *.
      destruct (sgn _); lia. }
    rewrite <- andb_assoc, M, andb_false_r. cbn [bind]. rewrite Z.quot_same, Z.mul_0_r by exact Na.
    rewrite arith_pos by (pose proof (tmax_ge t); lia). cbn [bind]. rewrite conv_id by apply val_0. cbn. now rewrite andb_false_r. }
  assert (Ka := lcm_ge a b Na Nb). assert (Kb := lcm_ge b a Nb Na). rewrite Z.lcm_comm in Kb.
  assert (Oa : okv t a) by (split; [exact Va|lia]). assert (Ob : okv t b) by (split; [exact Vb|lia]).
  assert (T : tmax t < 2 ^ wid t) by (unfold tmax; pose proof (wid_half t); pose proof (half_pos t); destruct (sgn t); lia).
  destruct (eucl il t r a b (Z.to_nat (wid t)) Oa Ob) as (g & Eg & Og & Ag); [rewrite Z2Nat.id by lia; lia|lia|].
  rewrite Eg. cbn [bind]. assert (Ng : g <> 0).
  { intros ->. symmetry in Ag. apply Z.gcd_eq_0_l in Ag. lia. }
  destruct (Z.eqb_spec g 0); [lia|]. cbn [negb]. rewrite cdiv_ok by assumption. cbn [bind].
  assert (D : (g | a)) by (apply Z.divide_abs_l; rewrite Ag; apply Z.gcd_divide_l). destruct D as [q Eq].
  assert (Eq' : a = g * q) by lia. assert (Q := quot_exact a g q Ng Eq'). assert (Oq := okv_quot t a g Oa Og Ng). rewrite Q in *.
  assert (F := lcm_factor a b g q Ag Ng Eq').
  destruct (wide_lcm il t q b Oq ltac:(lia)) as [A Oz]; [intros S; rewrite okv_range, S in Ob; lia|].
  rewrite A. cbn [bind]. rewrite conv_id by apply Oz. destruct (Z.ltb_spec (q * b) 0) as [L|L].
  - rewrite okv_range in Oz. destruct (sgn t) eqn:S; [|lia]. cbn [andb]. rewrite arith_pos by lia. cbn [bind].
    rewrite conv_id by (apply pos_val; lia). f_equal. lia.
  - rewrite andb_false_r. f_equal. lia.
Qed.
