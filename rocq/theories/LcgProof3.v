From Coq Require Import List Arith ZArith Bool Lia Znumtheory Zpow_facts.
From Coq Require Import ZifyBool ZifyNat.
From Verif Require Import Base BitModel BitSpec BitProof ShaModel CharProof RatModel RatProof RatProof2 RatProof3 LcgModel LcgSpec LcgProof LcgProof2.
Import ListNotations.
Open Scope Z_scope.

Lemma init_seed_lemma il t m c x0 : modulus_ok t m -> 1 < m -> residue m c -> is_val t x0 ->
  init_seed il t m c x0 = Ok (seeded c m x0) /\ lcg_min c <= seeded c m x0 <= lcg_max m.
Proof.
  intros HM H1 C V. pose proof (Mmax t m HM) as MM. pose proof (Z.mod_pos_bound x0 m ltac:(lia)) as B.
  assert (R : lcg_min c <= seeded c m x0 <= lcg_max m).
  { unfold lcg_min, lcg_max, seeded. destruct (Z.eqb_spec c 0); cbn [andb]; [|lia]. destruct (Z.eqb_spec (x0 mod m) 0); lia. }
  split; [|exact R]. unfold init_seed.
  assert (Cr : crem (promote il t) x0 m = Ok (Z.rem x0 m)).
  { unfold crem. destruct (Z.eqb_spec m 0); [lia|]. destruct (Z.eqb_spec m (-1)); [lia|]. cbn [orb]. now rewrite andb_false_r. }
  rewrite Cr. cbn [bind]. pose proof (Z.rem_bound_abs x0 m ltac:(lia)) as Rb.
  assert (Vr : is_val t (Z.rem x0 m)).
  { unfold is_val in *. destruct (sgn t) eqn:S.
    - unfold tmax in MM. rewrite S in MM. lia.
    - pose proof (Z.rem_nonneg x0 m ltac:(lia) ltac:(lia)). unfold tmax in MM. rewrite S in MM. lia. }
  rewrite conv_id by exact Vr.
  assert (E : bind (if (Z.rem x0 m <=? 0) && negb (Z.rem x0 m =? 0) then bind (arith (promote il t) (Z.rem x0 m + m)) (fun v => Ok (conv t v)) else Ok (Z.rem x0 m))
    (fun x => Ok x) = Ok (x0 mod m)).
  { pose proof (Z.quot_rem' x0 m) as Q. destruct (Z_lt_ge_dec (Z.rem x0 m) 0).
    - replace ((Z.rem x0 m <=? 0) && negb (Z.rem x0 m =? 0)) with true by lia. rewrite (ex_ok il t) by lia. cbn [bind]. f_equal.
      apply (Z.mod_unique _ _ (Z.quot x0 m - 1)); lia.
    - replace ((Z.rem x0 m <=? 0) && negb (Z.rem x0 m =? 0)) with false by lia. cbn [bind]. f_equal.
      apply (Z.mod_unique _ _ (Z.quot x0 m)); lia. }
  destruct (if (Z.rem x0 m <=? 0) && negb (Z.rem x0 m =? 0) then _ else _) as [y| |]; cbn [bind] in *; try discriminate.
  injection E as ->. fold (seeded c m x0).
  replace ((lcg_min c <=? seeded c m x0) && (seeded c m x0 <=? lcg_max m)) with true by lia. reflexivity.
Qed.

Lemma step_lemma il t m a c x : modulus_ok t m -> residue m a -> residue m c -> residue m x -> mult_def t m a ->
  lcg_step il t m a c x = Ok (lcg a c m x).
Proof. intros. unfold lcg_step, lcg. now apply mult_add_ok. Qed.
Lemma step_ub il t m a c x : modulus_ok t m -> residue m a -> residue m c -> residue m x -> ~ mult_def t m a ->
  lcg_step il t m a c x = UB.
Proof. intros. unfold lcg_step. now apply mult_add_ub. Qed.
Lemma nonzero m a x : 0 < m -> Z.gcd a m = 1 -> 0 < x < m -> 0 < (a * x) mod m.
Proof.
  intros M G X. pose proof (Z.mod_pos_bound (a * x) m M). destruct (Z.eq_dec ((a * x) mod m) 0) as [E|]; [|lia]. exfalso.
  apply Z.mod_divide in E; [|lia]. apply Z.gauss in E; [|now apply coprime_sym]. apply Z.divide_pos_le in E; lia.
Qed.
Lemma step_range m a c x : 0 < m -> residue m x -> (c = 0 -> Z.gcd a m = 1 /\ x <> 0) -> lcg_min c <= lcg a c m x <= lcg_max m.
Proof.
  unfold residue, lcg_min, lcg_max, lcg. intros M X H. pose proof (Z.mod_pos_bound (a * x + c) m M).
  destruct (Z.eqb_spec c 0) as [-> |]; [|lia]. destruct (H eq_refl) as [G N]. pose proof (nonzero m a x M G). rewrite Z.add_0_r in *. lia.
Qed.

Lemma mult_ok' il t m a x : modulus_ok t m -> residue m a -> residue m x -> power_of_2 m \/ fits m -> cm_mult il t m a x = Ok ((a * x) mod m).
Proof. intros. apply mult_ok; try assumption. now apply fits_def. Qed.

(** ** the inverse *)
Lemma invert_lemma il t m x r : modulus_ok t m -> 1 < m -> residue m x -> Z.gcd x m = 1 -> (64 < r)%nat ->
  exists y, invert il t m r x = Ok y /\ inverse_mod m x y.
Proof.
  intros HM H1 X G R. destruct (invert_ok il t m HM x r H1 X R) as (y & E & Ry & D). exists y. split; [exact E|]. split; [exact Ry|].
  destruct (Z.eqb_spec x 0) as [-> | N]. { rewrite Z.gcd_0_l, Z.abs_eq in G by (unfold residue in *; lia). lia. }
  apply cong; [lia|]. rewrite Z.mul_comm, <- G. exact D.
Qed.
Lemma inverse_unique m x y z : 1 < m -> inverse_mod m x y -> inverse_mod m x z -> y = z.
Proof.
  unfold inverse_mod, residue. intros M [Y Ey] [Z0 Ez]. rewrite <- (Z.mod_small y m), <- (Z.mod_small z m) by lia.
  rewrite <- (Z.mul_1_r y), <- (Z.mul_1_l z). rewrite <- (Z.mul_mod_idemp_r y 1), <- Ez, Z.mul_mod_idemp_r by lia.
  rewrite <- (Z.mul_mod_idemp_l 1 z), <- Ey, Z.mul_mod_idemp_l by lia. f_equal. ring.
Qed.
Lemma inversive_lemma il t m a c x r : modulus_ok t m -> 1 < m -> residue m a -> residue m c -> residue m x -> mult_def t m a ->
  Z.gcd x m = 1 -> (64 < r)%nat ->
  exists y, inverse_mod m x y /\ inversive_step il t m a c r x = Ok ((a * y + c) mod m).
Proof.
  intros HM H1 A C X D G R. destruct (invert_lemma il t m x r HM H1 X G R) as (y & E & I). exists y. split; [exact I|].
  unfold inversive_step. rewrite E. cbn [bind]. apply mult_add_ok; try assumption. apply I.
Qed.
Lemma inversive_zero_lemma il t m a c r : modulus_ok t m -> 1 < m -> residue m a -> residue m c -> mult_def t m a ->
  inversive_step il t m a c r 0 = Ok c.
Proof.
  intros HM H1 A C D. unfold inversive_step, invert. cbn [Z.eqb bind]. rewrite mult_add_ok by (try assumption; unfold residue; lia).
  rewrite Z.mul_0_r, Z.add_0_l, Z.mod_small by exact C. reflexivity.
Qed.

(** ** rand48 *)
Lemma u64_mod : modulus_ok u64 (2 ^ 48).
Proof. split; [|cbn; lia]. change (tmax u64) with (2 ^ 64 - 1). lia. Qed.
Lemma rand48_step_lemma il x : residue (2 ^ 48) x -> rand48_step il x = Ok (lcg 25214903917 11 (2 ^ 48) x).
Proof.
  intros X. unfold rand48_step. change rand48_a with 25214903917. apply step_lemma; try assumption; try (unfold residue; lia).
  - apply u64_mod.
  - left. exists 48. lia.
Qed.
Lemma rand48_lemma il x : residue (2 ^ 48) x ->
  rand48 il x = Ok ((lcg 25214903917 11 (2 ^ 48) x / 2 ^ 17) mod 2 ^ 15, lcg 25214903917 11 (2 ^ 48) x).
Proof.
  intros X. unfold rand48. rewrite rand48_step_lemma by exact X. cbn [bind]. set (y := lcg _ _ _ _).
  rewrite shr_ok by (change (wid u32) with 32; lia). cbn [bind]. do 2 f_equal. rewrite Z.shiftr_div_pow2 by lia.
  change (conv u32 y) with (y mod 2 ^ 32). rewrite conv_id.
  - change (2 ^ 32) with (2 ^ 17 * 2 ^ 15). rewrite Z.rem_mul_r by lia. rewrite Z.mul_comm, Z.div_add by lia.
    rewrite Z.div_small by (apply Z.mod_pos_bound; lia). reflexivity.
  - change u32 with (uns u32). apply uns_val. change (wid u32) with 32. pose proof (Z.mod_pos_bound y (2 ^ 32) ltac:(lia)).
    split; [apply Z.div_pos; lia|]. apply Z.div_lt_upper_bound; lia.
Qed.
Lemma rand48_seed_lemma il x0 : is_val u32 x0 -> rand48_seed il x0 = Ok (x0 * 2 ^ 16 + 13070).
Proof.
  intros V. change (0 <= x0 < 2 ^ 32) in V. unfold rand48_seed.
  assert (C : conv u64 x0 = x0). { apply conv_id. change u64 with (uns u64). apply uns_val. change (wid u64) with 64. lia. }
  rewrite C, shl_ok by (change (wid u64) with 64; lia || tauto || (left; reflexivity)). cbn [bind].
  assert (C2 : conv u64 (x0 * 2 ^ 16) = x0 * 2 ^ 16). { apply conv_id. change u64 with (uns u64). apply uns_val. change (wid u64) with 64. lia. }
  rewrite C2. assert (L : Z.lor (x0 * 2 ^ 16) 13070 = x0 * 2 ^ 16 + 13070).
  { rewrite <- Z.lxor_lor. symmetry. apply Z.add_nocarry_lxor. all: 
      rewrite <- Z.shiftl_mul_pow2 by lia; apply Z.bits_inj'; intros i Hi; rewrite Z.land_spec, Z.bits_0;
      (destruct (Z_lt_ge_dec i 16); [rewrite Z.shiftl_spec_low by lia; reflexivity|]; rewrite (Z.bits_above_log2 13070 i), andb_false_r by (try lia; cbn; lia); reflexivity). }
  rewrite L. destruct (init_seed_lemma il u64 (2 ^ 48) 11 (x0 * 2 ^ 16 + 13070) u64_mod) as [E _]; try (unfold residue; lia).
  - change u64 with (uns u64). apply uns_val. change (wid u64) with 64. lia.
  - rewrite E. f_equal. unfold seeded. cbn [Z.eqb andb]. apply Z.mod_small. lia.
Qed.

(** ** additive_combine *)
Lemma uarith t z : sgn t = false -> arith t z = Ok (z mod 2 ^ wid t).
Proof. intros S. unfold arith, conv. rewrite S. reflexivity. Qed.
Lemma additive_lemma t m1 m2 step1 step2 s v1 v2 : sgn t = false -> 1 < m2 <= m1 -> m1 <= tmax t ->
  step1 (fst s) = Ok v1 -> step2 (snd s) = Ok v2 -> 1 <= v1 < m1 -> 1 <= v2 < m2 ->
  exists v, additive_combine t m1 step1 step2 s = Ok (v, (v1, v2)) /\ 1 <= v <= m1 - 1 /\ v mod (m1 - 1) = (v1 - v2) mod (m1 - 1).
Proof.
  intros S M T E1 E2 B1 B2. unfold additive_combine. rewrite E1, E2. cbn [bind]. unfold tmax in T. rewrite S in T.
  destruct (Z.ltb_spec v2 v1).
  - rewrite uarith, Z.mod_small by (assumption || lia). cbn [bind]. eexists. split; [reflexivity|]. split; [lia|reflexivity].
  - rewrite uarith by assumption. cbn [bind]. rewrite uarith by assumption. cbn [bind]. rewrite uarith by assumption. cbn [bind].
    assert (W : 2 ^ wid t <> 0) by (pose proof (wid_ge t); pose proof (pow_pos (wid t)); lia).
    rewrite Z.add_mod_idemp_l, Zminus_mod_idemp_l by exact W. rewrite Z.mod_small by lia.
    eexists. split; [reflexivity|]. split; [lia|]. replace (v1 - v2 + m1 - 1) with (v1 - v2 + 1 * (m1 - 1)) by ring. apply Z_mod_plus_full.
Qed.
Lemma ecuyer_lemma il t s1 s2 : sgn t = false -> (2 <= lg t <= 3)%nat -> 1 <= s1 < 2147483563 -> 1 <= s2 < 2147483399 ->
  exists v, ecuyer1988 il t (s1, s2) = Ok (v, (lcg 40014 0 2147483563 s1, lcg 40692 0 2147483399 s2)) /\
    1 <= v <= 2147483562 /\ v mod 2147483562 = (lcg 40014 0 2147483563 s1 - lcg 40692 0 2147483399 s2) mod 2147483562.
Proof.
  intros S L S1 S2. assert (T : 2 ^ 32 - 1 <= tmax t).
  { unfold tmax. rewrite S. enough (2 ^ 32 <= 2 ^ wid t) by lia. apply pow_mono. unfold wid, bytes.
    assert (2 ^ 2 <= 2 ^ Z.of_nat (lg t)) by (apply pow_mono; lia). change (2 ^ 2) with 4 in *. lia. }
  unfold ecuyer1988. apply (additive_lemma t 2147483563 2147483399); try lia; try assumption; cbn [fst snd].
  - apply step_lemma; try (unfold residue; lia); [split; lia|]. do 4 right. unfold fits. reflexivity.
  - apply step_lemma; try (unfold residue; lia); [split; lia|]. do 4 right. unfold fits. reflexivity.
  - pose proof (step_range 2147483563 40014 0 s1 ltac:(lia) ltac:(unfold residue; lia)) as R. unfold lcg_min, lcg_max in R. cbn [Z.eqb] in R.
    enough (1 <= lcg 40014 0 2147483563 s1 <= 2147483563 - 1) by lia. apply R. intros _. split; [reflexivity|lia].
  - pose proof (step_range 2147483399 40692 0 s2 ltac:(lia) ltac:(unfold residue; lia)) as R. unfold lcg_min, lcg_max in R. cbn [Z.eqb] in R.
    enough (1 <= lcg 40692 0 2147483399 s2 <= 2147483399 - 1) by lia. apply R. intros _. split; [reflexivity|lia].
Qed.

(** ** shuffle_order *)
Lemma put_upd v j x : put v j x = upd v j x.
Proof. revert j. induction v as [|z v IH]; intros [|j]; cbn [put upd]; try reflexivity. now rewrite IH. Qed.
Lemma put_length v j x : length (put v j x) = length v.
Proof. revert j. induction v as [|z v IH]; intros [|j]; cbn [put length]; try reflexivity. now rewrite IH. Qed.
Lemma put_Forall (P : Z -> Prop) v j x : P x -> Forall P v -> Forall P (put v j x).
Proof.
  intros Px H. revert j. induction H as [|z v Pz H IH]; intros [|j]; cbn [put]; constructor; auto.
Qed.

Section Shuffle.
  Variable S : Type.
  Variable step : S -> res (Z * S).
  Variable t : ity.
  Variable lo hi : Z.
  Variable k : nat.
  Hypothesis St : sgn t = false.
  Hypothesis Hk : (1 <= k)%nat.
  Hypothesis Kt : Z.of_nat k <= tmax t.
  Hypothesis Hb : 0 <= lo <= hi.
  Hypothesis Ht : hi <= tmax t.
  Hypothesis L3 : (lg t <= 3)%nat.
  Hypothesis Hs : k = 1%nat \/ Z.of_nat k * (hi - lo + 1) < 2 ^ 64.

  Lemma tw : tmax t = 2 ^ wid t - 1 /\ 2 ^ wid t <= 2 ^ 64.
  Proof.
    unfold tmax. rewrite St. split; [reflexivity|]. apply pow_mono. pose proof (wid_ge t). unfold wid, bytes in *.
    assert (2 ^ Z.of_nat (lg t) <= 2 ^ 3) by (apply pow_mono; lia). change (2 ^ 3) with 8 in *. lia.
  Qed.
  Lemma index_ok y : lo <= y <= hi ->
    shuffle_index t k (hi - lo) (y - lo) = Ok (Z.of_nat k * (y - lo) / (hi - lo + 1)) /\ 0 <= Z.of_nat k * (y - lo) / (hi - lo + 1) < Z.of_nat k.
  Proof.
    intros Y. pose proof tw as [T T6]. assert (B : 0 <= Z.of_nat k * (y - lo) / (hi - lo + 1) < Z.of_nat k).
    { split; [apply Z.div_pos; nia|]. apply Z.div_lt_upper_bound; nia. }
    split; [|exact B]. unfold shuffle_index. destruct (Z.eqb_spec (Z.of_nat k) 1) as [E|E].
    { rewrite E in *. f_equal. lia. }
    destruct Hs as [|Hs']; [lia|]. assert (P : 0 <= Z.of_nat k * (y - lo) < 2 ^ 64) by nia.
    assert (C : conv t (Z.of_nat k * (y - lo) / (hi - lo + 1)) = Z.of_nat k * (y - lo) / (hi - lo + 1)) by (apply conv_id, pos_val; lia).
    assert (A64 : forall z, 0 <= z < 2 ^ 64 -> arith u64 z = Ok z).
    { intros z Hz. apply arith_ok. change u64 with (uns u64). apply uns_val. exact Hz. }
    assert (D64 : forall z w, 0 <= z -> 0 < w -> cdiv u64 z w = Ok (z / w)).
    { intros z w Hz Hw. unfold cdiv. cbn [u64 sgn andb]. rewrite orb_false_r. destruct (Z.eqb_spec w 0); [lia|]. now rewrite quot_div by lia. }
    rewrite quot_div by (pose proof (tmax_ge t); lia). destruct (Z.ltb_spec (hi - lo) (tmax t / Z.of_nat k)) as [L|L].
    - assert (L' : hi - lo + 1 <= tmax t / Z.of_nat k) by lia. apply le_div in L'; [|lia].
      rewrite A64 by exact P. cbn [bind]. rewrite uarith, Z.mod_small by (assumption || nia). cbn [bind]. rewrite D64 by lia. cbn [bind]. now rewrite C.
    - change (tmax umax) with (2 ^ 64 - 1). rewrite quot_div by lia.
      assert (L' : hi - lo + 1 <= (2 ^ 64 - 1) / Z.of_nat k) by (apply le_div; lia).
      destruct (Z.ltb_spec (hi - lo) ((2 ^ 64 - 1) / Z.of_nat k)); [|lia].
      change umax with u64. rewrite (Z.mul_comm (y - lo)). rewrite A64 by exact P. cbn [bind]. rewrite A64 by (clear - Hs' Hk Hb; nia). cbn [bind]. rewrite D64 by lia. cbn [bind]. now rewrite C.
  Qed.

  Lemma shuffle_run_ok : forall n s o v y, produces step s o -> (forall i, lo <= o i <= hi) -> length v = k -> Forall (fun x => lo <= x <= hi) v ->
    lo <= y <= hi -> run (shuffle_step S step t lo hi k) n (s, v, y) = Ok (shuffled lo hi n o v y).
  Proof.
    induction n as [|n IH]; intros s o v y (st & S0 & Hst) Ho Lv Fv Hy; [reflexivity|]. cbn [run shuffled]. unfold shuffle_step at 1.
    pose proof tw as [T T6]. rewrite uarith, Z.mod_small by (assumption || lia). cbn [bind]. rewrite uarith, Z.mod_small by (assumption || lia). cbn [bind].
    destruct (index_ok y Hy) as [E B]. rewrite E. cbn [bind]. rewrite Lv. set (j := Z.to_nat (Z.of_nat k * (y - lo) / (hi - lo + 1))).
    assert (J : (j < length v)%nat) by lia. unfold rd. destruct (nth_error v j) as [w|] eqn:N; [|apply nth_error_None in N; lia].
    cbn [bind]. rewrite <- S0, Hst. cbn [bind fst snd]. unfold wr. destruct (Nat.ltb_spec j (length v)); [|lia]. cbn [bind fst snd].
    assert (Nw : nth j v 0 = w) by (apply nth_error_nth; exact N). rewrite Nw, <- put_upd.
    assert (Hw : lo <= w <= hi). { rewrite Forall_forall in Fv. apply Fv. apply nth_error_In with j. exact N. }
    rewrite (IH (st 1%nat) (fun i => o (Datatypes.S i))).
    - reflexivity.
    - exists (fun i => st (Datatypes.S i)). split; [reflexivity|]. intros i. apply Hst.
    - intros i. apply Ho.
    - now rewrite put_length.
    - apply put_Forall; [apply Ho|exact Fv].
    - exact Hw.
  Qed.
  Lemma fill_ok : forall n s o, produces step s o -> exists s', fill S step n s = Ok (map o (seq 0 n), s') /\ produces step s' (fun i => o (n + i)%nat).
  Proof.
    induction n as [|n IH]; intros s o (st & S0 & Hst).
    - exists s. split; [reflexivity|]. exists st. split; [exact S0|exact Hst].
    - cbn [fill]. rewrite <- S0, Hst. cbn [bind fst snd].
      destruct (IH (st 1%nat) (fun i => o (Datatypes.S i))) as (s' & E & P).
      + exists (fun i => st (Datatypes.S i)). split; [reflexivity|]. intros i. apply Hst.
      + rewrite E. cbn [bind fst snd]. exists s'. split; [|exact P]. cbn [seq map]. rewrite <- seq_shift, map_map. reflexivity.
  Qed.
  Lemma shuffle_lemma n s o : produces step s o -> (forall i, lo <= o i <= hi) ->
    bind (shuffle_init S step k s) (run (shuffle_step S step t lo hi k) n) =
    Ok (shuffled lo hi n (fun i => o (k + 1 + i)%nat) (map o (seq 0 k)) (o k)).
  Proof.
    intros P Ho. unfold shuffle_init. destruct (fill_ok k s o P) as (s' & E & (st & S0 & Hst)). rewrite E. cbn [bind fst snd].
    rewrite <- S0, Hst. cbn [bind fst snd]. rewrite (shuffle_run_ok n (st 1%nat) (fun i => o (k + 1 + i)%nat)).
    - do 2 f_equal. f_equal. lia.
    - exists (fun i => st (1 + i)%nat). split; [reflexivity|]. intros i. cbn [plus]. rewrite Hst. do 2 f_equal. f_equal. lia.
    - intros i. apply Ho.
    - now rewrite map_length, seq_length.
    - apply Forall_forall. intros x Hx. apply in_map_iff in Hx. destruct Hx as (i & <- & _). apply Ho.
    - apply Ho.
  Qed.
End Shuffle.

(** ** discard with a = 1 *)
Lemma discard_one_lemma il t m c z x r : modulus_ok t m -> 1 < m -> discard il t m 1 c r z x = UB.
Proof.
  intros HM H1. unfold discard. pose proof (tmax_ge t). rewrite (arith_pos il t (1 - 1)) by lia. cbn [bind]. change (1 - 1) with 0.
  rewrite (conv_id t 0) by (apply pos_val; lia). unfold invert. cbn [Z.eqb bind].
  assert (E : cm_mult il t m 0 0 = Ok 0).
  { rewrite mult_ok; try assumption; try (unfold residue; lia); [reflexivity|]. right. left. lia. }
  rewrite E. cbn [bind Z.eqb]. reflexivity.
Qed.
Lemma sample_discards :
  discard 2 u32 12 9 5 70 2 0 = Ok 4 /\ times 2 (lcg 9 5 12) 0 = 2 /\
  discard 2 u32 36 6 1 70 2 1 = Ok 11 /\ times 2 (lcg 6 1 36) 1 = 7.
Proof. repeat apply conj; vm_compute; reflexivity. Qed.

Lemma times_shift n f x : times n f (f x) = f (times n f x).
Proof. revert x. induction n as [|n IH]; intros x; cbn [times]; [reflexivity|]. apply IH. Qed.
Lemma lcg_run_lemma il t m a c : modulus_ok t m -> residue m a -> residue m c -> mult_def t m a -> forall n x, residue m x ->
  run (fun s => y <- lcg_step il t m a c s ;; Ok (y, y)) n x = Ok (map (fun i => times i (lcg a c m) x) (seq 1 n)).
Proof.
  intros HM A C D. induction n as [|n IH]; intros x X; [reflexivity|]. cbn [run seq map times]. rewrite step_lemma by assumption. cbn [bind fst snd].
  rewrite IH by (apply Z.mod_pos_bound; apply HM). cbn [bind]. do 2 f_equal. rewrite <- (seq_shift n 1), map_map. reflexivity.
Qed.
Lemma lcg_range_lemma m a c : 0 < m -> (c = 0 -> Z.gcd a m = 1) -> forall n x, residue m x -> lcg_min c <= x -> lcg_min c <= times n (lcg a c m) x <= lcg_max m.
Proof.
  intros M G. induction n as [|n IH]; intros x X L; cbn [times]. { unfold lcg_max, residue in *. lia. }
  pose proof (step_range m a c x M X) as R. assert (lcg_min c <= lcg a c m x <= lcg_max m).
  { apply R. intros ->. split; [now apply G|]. unfold lcg_min in L. cbn [Z.eqb] in L. lia. }
  apply IH; [unfold residue, lcg_max in *; pose proof (Z.mod_pos_bound (a * x + c) m M); unfold lcg in *; lia|lia].
Qed.

Lemma minstd_lemma il t x : modulus_ok t 2147483647 -> residue 2147483647 x ->
  minstd_rand0 il t x = Ok ((16807 * x) mod (2 ^ 31 - 1)) /\ minstd_rand il t x = Ok ((48271 * x) mod (2 ^ 31 - 1)).
Proof.
  intros M X. assert (D : forall a, mult_def t 2147483647 a) by (intros a; do 4 right; unfold fits; lia).
  unfold minstd_rand0, minstd_rand. rewrite !step_lemma by (try assumption; try apply D; unfold residue; lia).
  unfold lcg. rewrite !Z.add_0_r. split; reflexivity.
Qed.
