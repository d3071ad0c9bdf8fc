(** Exactness of the arithmetic of FltModel and the rounding functions. *)
From Coq Require Import List Arith ZArith Bool Lia.
From Verif Require Import Base BitModel FltModel FltSpec.
Import ListNotations.
Open Scope Z_scope.

(** ** Powers and logarithms *)

Lemma p2pos k : 0 <= k -> 0 < 2 ^ k.
Proof. intros; apply Z.pow_pos_nonneg; lia. Qed.

Lemma p2split a b : 0 <= a <= b -> 2 ^ b = 2 ^ a * 2 ^ (b - a).
Proof. intros; rewrite <- Z.pow_add_r by lia; f_equal; lia. Qed.

Lemma p2le a b : 0 <= a <= b -> 2 ^ a <= 2 ^ b.
Proof. intros; apply Z.pow_le_mono_r; lia. Qed.

Lemma p2lt_inv a b : 0 <= b -> 2 ^ a < 2 ^ b -> a < b.
Proof. intros Hb H. apply (Z.pow_lt_mono_r_iff 2); lia. Qed.

Lemma repr_range f n : repr f n -> 0 <= lo f -> 0 <= n < 2 ^ hi f.
Proof.
  intros (H & m & k & Hm & Hk & ->) L. split; [|exact H].
  pose proof (p2pos k ltac:(lia)). nia.
Qed.

(** A representable number is a multiple of the last place of its binade. *)
Lemma repr_div f n : 1 <= prec f -> 0 <= lo f -> repr f n ->
  exists m, n = m * 2 ^ Z.max (lo f) (Z.log2 n + 1 - prec f).
Proof.
  intros Hp Hl (_ & m & k & Hm & Hk & ->).
  assert (Pk := p2pos k ltac:(lia)).
  destruct (Z.eq_dec m 0) as [->|Z0]; [exists 0; lia|].
  assert (Hlog : Z.log2 (m * 2 ^ k) < prec f + k).
  { apply Z.log2_lt_pow2; [nia|]. rewrite Z.pow_add_r by lia. nia. }
  set (e := Z.max _ _).
  assert (Hle : lo f <= e <= k) by lia.
  exists (m * 2 ^ (k - e)). rewrite (p2split e k) by lia. ring.
Qed.

Lemma repr_intro f m k : 1 <= prec f -> 0 <= lo f -> 0 <= m <= 2 ^ prec f -> lo f <= k ->
  m * 2 ^ k < 2 ^ hi f -> repr f (m * 2 ^ k).
Proof.
  intros Hp Hl Hm Hk H. split; [exact H|].
  destruct (Z.eq_dec m (2 ^ prec f)) as [->|Hne].
  - exists (2 ^ (prec f - 1)), (k + 1).
    split; [|split; [lia|]].
    + split; [apply Z.pow_nonneg; lia|]. apply Z.pow_lt_mono_r; lia.
    + rewrite <- !Z.pow_add_r by lia. f_equal; lia.
  - exists m, k. split; [lia|]. split; [exact Hk|reflexivity].
Qed.

Lemma repr_pow f k : 1 <= prec f -> 0 <= lo f -> lo f <= k < hi f -> repr f (2 ^ k).
Proof.
  intros Hp Hl Hk. rewrite <- (Z.mul_1_l (2 ^ k)).
  assert (A := p2pos (prec f) ltac:(lia)).
  assert (B : 2 ^ k < 2 ^ hi f) by (apply Z.pow_lt_mono_r; lia).
  apply repr_intro; lia.
Qed.

Lemma repr0 f : 1 <= prec f -> 0 <= lo f -> 0 <= hi f -> repr f 0.
Proof.
  intros. change 0 with (0 * 2 ^ lo f) at 1.
  assert (A := p2pos (prec f) ltac:(lia)). assert (B := p2pos (hi f) ltac:(lia)).
  apply repr_intro; lia.
Qed.

Lemma repr_sub f c n : sub_fmt f c -> 0 <= prec f -> 0 <= hi f -> repr f n -> repr c n.
Proof.
  intros (A & B & C) P Q (H & m & k & Hm & Hk & ->). split.
  - pose proof (p2le (hi f) (hi c)). lia.
  - exists m, k. pose proof (p2le (prec f) (prec c)). repeat split; lia.
Qed.

(** ** Rounding of representable numbers *)

Lemma rne_exact n b : 0 < b -> rne (n * b) b = n.
Proof.
  intros H. unfold rne. rewrite Z.div_mul, Z.mod_mul by lia.
  destruct (Z.ltb_spec (2 * 0) b); lia.
Qed.

Lemma round_exact f n b : 1 <= prec f -> 0 <= lo f -> repr f n -> 0 < b ->
  round_q f (n * b) b = n.
Proof.
  intros Hp Hl R Hb. unfold round_q, exq. rewrite Z.div_mul by lia.
  destruct (repr_div f n Hp Hl R) as (m & E).
  set (k := Z.max _ _) in *. assert (Pk := p2pos k ltac:(lia)).
  rewrite E. replace (m * 2 ^ k * b) with (m * (b * 2 ^ k)) by ring.
  rewrite rne_exact by nia. reflexivity.
Qed.

Lemma mk_exact f s n b : 1 <= prec f -> 0 <= lo f -> repr f n -> 0 < b ->
  mk f s (n * b) b = Fin s n.
Proof.
  intros Hp Hl R Hb. unfold mk. rewrite round_exact by assumption.
  destruct R as (H & _). destruct (Z.leb_spec (2 ^ hi f) n); [lia|reflexivity].
Qed.

Lemma mk_exact1 f s n : 1 <= prec f -> 0 <= lo f -> repr f n -> mk f s n 1 = Fin s n.
Proof.
  intros. replace (mk f s n 1) with (mk f s (n * 1) 1) by (f_equal; lia).
  apply mk_exact; auto; lia.
Qed.

Lemma sg_sub s n m : sg s n - sg s m = sg s (n - m).
Proof. destruct s; cbn [sg]; lia. Qed.

Lemma sg_abs s n : 0 <= n -> Z.abs (sg s n) = n.
Proof. destruct s; cbn [sg]; lia. Qed.

(** ** The rounding really is to nearest *)

Lemma rne_near a b m : 0 <= a -> 0 < b -> Z.abs (b * rne a b - a) <= Z.abs (b * m - a).
Proof.
  intros Ha Hb. unfold rne.
  pose proof (Z.div_mod a b ltac:(lia)) as E. pose proof (Z.mod_pos_bound a b Hb) as B.
  set (q := a / b) in *. set (r := a mod b) in *. clearbody q r.
  assert (D : m <= q \/ q + 1 <= m) by lia.
  assert (X1 : m <= q -> b * m <= b * q) by nia.
  assert (X2 : q + 1 <= m -> b * q + b <= b * m) by nia.
  destruct (Z.ltb_spec (2 * r) b); [lia|].
  destruct (Z.ltb_spec b (2 * r)); [lia|].
  destruct (Z.even q); lia.
Qed.

Lemma log2_bounds n : 0 < n -> 2 ^ Z.log2 n <= n < 2 ^ (Z.log2 n + 1).
Proof. intros H. pose proof (Z.log2_spec n H). rewrite Z.add_1_r. lia. Qed.

Lemma round_nearest f a b : 1 <= prec f -> 0 <= lo f -> 0 <= a -> 0 < b ->
  nearest f a b (round_q f a b).
Proof.
  intros Hp Hl Ha Hb m R. unfold round_q.
  set (k := exq f a b). assert (Hk : lo f <= k) by (unfold k, exq; lia).
  assert (Pk := p2pos k ltac:(lia)).
  set (y := rne a (b * 2 ^ k)).
  assert (N : forall j, Z.abs (b * 2 ^ k * y - a) <= Z.abs (b * 2 ^ k * j - a)).
  { intros j. apply rne_near; nia. }
  replace (b * (y * 2 ^ k)) with (b * 2 ^ k * y) by ring.
  pose proof (repr_range f m R Hl) as Rm.
  destruct (repr_div f m Hp Hl R) as (j & E).
  set (km := Z.max _ _) in E.
  destruct (Z_le_gt_dec k km) as [Hle|Hgt].
  - (* m is on the grid *)
    rewrite E. rewrite (p2split k km) by lia.
    replace (b * (j * (2 ^ k * 2 ^ (km - k)))) with (b * 2 ^ k * (j * 2 ^ (km - k))) by ring.
    apply N.
  - (* m is below the binade of a / b *)
    assert (Hk2 : k = Z.log2 (a / b) + 1 - prec f) by (unfold k, exq in *; lia).
    assert (Hlog : Z.log2 m < Z.log2 (a / b)) by (unfold km in *; lia).
    assert (Q : 0 < a / b).
    { destruct (Z_lt_ge_dec 0 (a / b)); [assumption|].
      rewrite (Z.log2_nonpos (a / b)) in Hlog by lia.
      pose proof (Z.log2_nonneg m). lia. }
    pose proof (log2_bounds (a / b) Q) as BQ.
    assert (Hm : m < 2 ^ Z.log2 (a / b)).
    { destruct (Z_le_gt_dec m 0) as [Z0|Z0].
      - pose proof (p2pos (Z.log2 (a / b)) (Z.log2_nonneg _)). lia.
      - apply Z.log2_lt_cancel. rewrite Z.log2_pow2 by apply Z.log2_nonneg. exact Hlog. }
    set (L := Z.log2 (a / b)) in *.
    assert (GL : 2 ^ L = 2 ^ k * 2 ^ (prec f - 1)).
    { rewrite <- Z.pow_add_r by lia. f_equal. lia. }
    specialize (N (2 ^ (prec f - 1))).
    replace (b * 2 ^ k * 2 ^ (prec f - 1)) with (b * 2 ^ L) in N by (rewrite GL; ring).
    assert (Hb2 : b * 2 ^ L <= a).
    { pose proof (Z.mul_div_le a b Hb). nia. }
    assert (b * m <= b * 2 ^ L) by nia.
    lia.
Qed.

Lemma round_repr f a b : 1 <= prec f -> 0 <= lo f -> 0 <= a -> 0 < b ->
  round_q f a b < 2 ^ hi f -> repr f (round_q f a b).
Proof.
  intros Hp Hl Ha Hb H. unfold round_q in *.
  set (k := exq f a b) in *. assert (Hk : lo f <= k) by (unfold k, exq; lia).
  assert (Pk := p2pos k ltac:(lia)).
  apply repr_intro; auto.
  assert (Q : a / (b * 2 ^ k) < 2 ^ prec f).
  { rewrite <- Z.div_div by lia.
    assert (Q0 : 0 <= a / b) by (apply Z.div_pos; lia).
    apply Z.div_lt_upper_bound; [lia|].
    destruct (Z.eq_dec (a / b) 0) as [->|Q1].
    { pose proof (p2pos (prec f)). nia. }
    pose proof (log2_bounds (a / b) ltac:(lia)) as (_ & B).
    rewrite <- Z.pow_add_r by lia.
    eapply Z.lt_le_trans; [exact B|]. apply Z.pow_le_mono_r; [lia|].
    unfold k, exq. lia. }
  assert (Q0 : 0 <= a / (b * 2 ^ k)) by (apply Z.div_pos; nia).
  unfold rne. destruct (2 * (a mod (b * 2 ^ k)) <? b * 2 ^ k); [lia|].
  destruct (b * 2 ^ k <? 2 * (a mod (b * 2 ^ k))); [lia|].
  destruct (Z.even _); lia.
Qed.

Section U.
  Variable u : Z.
  Variable f : fmt.
  Hypothesis I : ieee u f.

  Lemma iu : 0 <= u. Proof. unfold ieee in I. lia. Qed.
  Lemma ip : 1 <= prec f. Proof. unfold ieee in I. lia. Qed.
  Lemma il : 0 <= lo f. Proof. unfold ieee in I. lia. Qed.
  Lemma one_pos : 0 < one u. Proof. apply p2pos, iu. Qed.

  Lemma fsub_same s n m : repr f (Z.abs (n - m)) -> 0 <= n -> 0 <= m ->
    fsub f (Fin s n) (Fin s m) = if n =? m then Fin false 0
      else Fin (xorb s (n <? m)) (Z.abs (n - m)).
  Proof.
    intros R Hn Hm. unfold fsub, fneg, fadd.
    replace (sg s n + sg (negb s) m) with (sg s (n - m)) by (destruct s; cbn [sg negb]; lia).
    destruct (Z.eqb_spec n m) as [->|Hne].
    - replace (sg s (m - m)) with 0 by (destruct s; cbn [sg]; lia).
      cbn [Z.eqb]. rewrite andb_negb_r. reflexivity.
    - destruct (Z.eqb_spec (sg s (n - m)) 0) as [E|_]; [destruct s; cbn [sg] in E; lia|].
      replace (Z.abs (sg s (n - m))) with (Z.abs (n - m)) by (destruct s; cbn [sg]; lia).
      rewrite mk_exact1 by (auto using ip, il). f_equal.
      destruct s; cbn [sg xorb]; destruct (Z.ltb_spec n m); cbn [negb]; lia.
  Qed.

  Lemma fadd_same s n m : repr f (n + m) -> 0 < n + m -> 0 <= n -> 0 <= m ->
    fadd f (Fin s n) (Fin s m) = Fin s (n + m).
  Proof.
    intros R Hp Hn Hm. unfold fadd.
    replace (sg s n + sg s m) with (sg s (n + m)) by (destruct s; cbn [sg]; lia).
    destruct (Z.eqb_spec (sg s (n + m)) 0) as [E|_]; [destruct s; cbn [sg] in E; lia|].
    rewrite sg_abs by lia. rewrite mk_exact1 by (auto using ip, il). f_equal.
    destruct s; cbn [sg]; lia.
  Qed.

  Lemma of_int_exact z : 0 <= z -> repr f (z * one u) -> of_int u f z = Fin false (z * one u).
  Proof.
    intros Hz R. unfold of_int. rewrite Z.abs_eq by lia.
    rewrite mk_exact1 by (auto using ip, il). f_equal. lia.
  Qed.

  Lemma repr_trunc n : repr f n -> repr f (n / one u * one u).
  Proof.
    intros R. assert (U := iu). assert (P := ip). assert (L := il).
    destruct R as (H & m & k & Hm & Hk & ->).
    assert (Pk := p2pos k ltac:(lia)). assert (O := one_pos).
    destruct (Z_le_gt_dec u k) as [Hle|Hgt].
    - rewrite (p2split u k) by lia. fold (one u).
      replace (m * (one u * 2 ^ (k - u))) with (m * 2 ^ (k - u) * one u) by ring.
      rewrite Z.div_mul by lia.
      replace (m * 2 ^ (k - u) * one u) with (m * 2 ^ k)
        by (rewrite (p2split u k) by lia; unfold one; ring).
      split; [exact H|]. exists m, k. lia.
    - unfold one in *. assert (Pd := p2pos (u - k) ltac:(lia)).
      rewrite (p2split k u) by lia.
      rewrite (Z.mul_comm m), Z.div_mul_cancel_l by lia.
      pose proof (Z.mul_div_le m (2 ^ (u - k)) Pd).
      assert (0 <= m / 2 ^ (u - k)) by (apply Z.div_pos; lia).
      replace (m / 2 ^ (u - k) * (2 ^ k * 2 ^ (u - k)))
        with (m / 2 ^ (u - k) * 2 ^ (u - k) * 2 ^ k) by ring.
      apply repr_intro; try lia; nia.
  Qed.

  Lemma repr_frac n : repr f n -> repr f (n mod one u).
  Proof.
    intros R. assert (U := iu). assert (P := ip). assert (L := il).
    destruct R as (H & m & k & Hm & Hk & ->).
    assert (Pk := p2pos k ltac:(lia)). assert (O := one_pos).
    assert (Hh : 0 <= hi f) by (unfold ieee in I; lia).
    destruct (Z_le_gt_dec u k) as [Hle|Hgt].
    - unfold one in *. rewrite (p2split u k) by lia.
      replace (m * (2 ^ u * 2 ^ (k - u))) with (m * 2 ^ (k - u) * 2 ^ u) by ring.
      rewrite Z.mod_mul by lia. apply repr0; auto.
    - unfold one in *. assert (Pd := p2pos (u - k) ltac:(lia)).
      rewrite (p2split k u) by lia.
      rewrite (Z.mul_comm m), Z.mul_mod_distr_l by lia.
      pose proof (Z.mod_pos_bound m (2 ^ (u - k)) Pd).
      pose proof (Z.mod_le m (2 ^ (u - k)) ltac:(lia) Pd).
      rewrite Z.mul_comm. apply repr_intro; try lia; nia.
  Qed.

  Lemma repr_next n : repr f n -> n mod one u <> 0 -> repr f ((n / one u + 1) * one u).
  Proof.
    intros R Hne. assert (U := iu). assert (P := ip). assert (L := il).
    destruct R as (H & m & k & Hm & Hk & ->).
    assert (Pk := p2pos k ltac:(lia)). assert (O := one_pos).
    assert (Hpu : u + prec f < hi f) by (unfold ieee in I; lia).
    destruct (Z_le_gt_dec u k) as [Hle|Hgt].
    - exfalso. apply Hne. unfold one in *. rewrite (p2split u k) by lia.
      replace (m * (2 ^ u * 2 ^ (k - u))) with (m * 2 ^ (k - u) * 2 ^ u) by ring.
      apply Z.mod_mul; lia.
    - unfold one in *. assert (Pd := p2pos (u - k) ltac:(lia)).
      rewrite (p2split k u) by lia.
      rewrite (Z.mul_comm m), Z.div_mul_cancel_l by lia.
      set (q := m / 2 ^ (u - k)).
      assert (Q0 : 0 <= q) by (apply Z.div_pos; lia).
      assert (Q1 := Z.mul_div_le m (2 ^ (u - k)) Pd). fold q in Q1.
      assert (D : prec f < u - k \/ u - k <= prec f) by lia.
      destruct D as [D|D].
      + assert (q = 0) as ->.
        { apply Z.div_small. pose proof (p2le (prec f) (u - k)). lia. }
        rewrite Z.add_0_l, Z.mul_1_l. rewrite <- Z.pow_add_r by lia.
        apply repr_pow; try lia.
      + assert (Hq : (q + 1) * 2 ^ (u - k) <= 2 ^ prec f).
        { rewrite (p2split (u - k) (prec f)) by lia.
          assert (q < 2 ^ (prec f - (u - k))).
          { apply Z.div_lt_upper_bound; [lia|].
            rewrite <- (p2split (u - k) (prec f)) by lia. lia. }
          nia. }
        replace ((q + 1) * (2 ^ k * 2 ^ (u - k))) with ((q + 1) * 2 ^ (u - k) * 2 ^ k) by ring.
        apply repr_intro; [lia|lia|nia|lia|].
        apply Z.le_lt_trans with (2 ^ prec f * 2 ^ k); [nia|].
        rewrite <- Z.pow_add_r by lia. apply Z.pow_lt_mono_r; lia.
  Qed.

  Lemma repr_one : repr f (one u).
  Proof.
    assert (U := iu). assert (P := ip). assert (L := il).
    apply repr_pow; auto. unfold ieee in I. lia.
  Qed.

  (** ** fabs and the tolerance *)

  Lemma isnan_fin s n : isnan (Fin s n) = false.
  Proof. unfold isnan, feq. rewrite Z.eqb_refl. reflexivity. Qed.

  Lemma feq_zero s n : feq (Fin s n) zero = (n =? 0).
  Proof.
    unfold feq, zero. destruct s; cbn [sg]; auto.
    destruct (Z.eqb_spec n 0), (Z.eqb_spec (- n) 0); lia.
  Qed.

  Lemma flt_zero s n : 0 <= n -> flt (Fin s n) zero = s && negb (n =? 0).
  Proof.
    intros H. unfold flt, zero. destruct s; cbn [sg andb].
    - destruct (Z.ltb_spec (- n) 0), (Z.eqb_spec n 0); cbn [negb]; lia.
    - destruct (Z.ltb_spec n 0); lia.
  Qed.

  Lemma fabs_fin s n : 0 <= n -> fabs (Fin s n) = Fin false n.
  Proof.
    intros H. unfold fabs. rewrite isnan_fin, feq_zero.
    destruct (Z.eqb_spec n 0) as [->|Hne]; [reflexivity|].
    unfold copysign. rewrite feq_zero, isnan_fin. destruct (Z.eqb_spec n 0); [lia|].
    unfold broken_signbit. rewrite isnan_fin, flt_zero by exact H.
    destruct (Z.eqb_spec n 0); [lia|]. destruct s; reflexivity.
  Qed.

  Lemma max2_fin a b : max2 (Fin false a) (Fin false b) = Fin false (Z.max a b).
  Proof.
    unfold max2, flt. cbn [sg]. destruct (Z.ltb_spec a b); f_equal; lia.
  Qed.

  Lemma eps_mul m : repr f m -> one u <= m ->
    fmul u f (epsilon u f) (Fin false m) = Fin false (m / 2 ^ (prec f - 1))
    /\ m / 2 ^ (prec f - 1) * 2 ^ (prec f - 1) = m.
  Proof.
    intros R Hm. assert (U := iu). assert (P := ip). assert (L := il). assert (O := one_pos).
    assert (R0 := repr_range f m R L).
    destruct (repr_div f m P L R) as (j & E).
    set (k := Z.max _ _) in E.
    assert (Hlog : u <= Z.log2 m).
    { unfold one in *. apply Z.log2_le_pow2; lia. }
    assert (Hk : lo f + (prec f - 1) <= k) by (unfold k; unfold ieee in I; lia).
    assert (E2 : m = j * 2 ^ (k - (prec f - 1)) * 2 ^ (prec f - 1)).
    { rewrite E at 1. rewrite (p2split (prec f - 1) k) by lia. ring. }
    assert (Pp := p2pos (prec f - 1) ltac:(lia)).
    assert (Q : m / 2 ^ (prec f - 1) = j * 2 ^ (k - (prec f - 1))).
    { rewrite E2 at 1. apply Z.div_mul. lia. }
    split; [|rewrite Q; lia].
    unfold fmul, epsilon. cbn [xorb].
    replace (2 ^ (u + 1 - prec f) * m) with (m / 2 ^ (prec f - 1) * one u).
    - apply mk_exact; auto. rewrite Q.
      assert (Pk := p2pos (k - (prec f - 1)) ltac:(lia)).
      assert (Pk0 := p2pos k ltac:(lia)).
      apply repr_intro; try lia.
      + split; [nia|].
        destruct R as (_ & m' & k' & Hm' & Hk' & E').
        (* j <= 2 ^ prec because log2 m < prec + k *)
        assert (B := log2_bounds m ltac:(lia)).
        assert (j * 2 ^ k < 2 ^ prec f * 2 ^ k).
        { rewrite <- E, <- Z.pow_add_r by lia.
          eapply Z.lt_le_trans; [apply B|]. apply Z.pow_le_mono_r; [lia|]. unfold k. lia. }
        nia.
      + apply Z.le_lt_trans with m; [nia|]. lia.
    - rewrite Q. unfold one. rewrite E2.
      replace (2 ^ u) with (2 ^ (u + 1 - prec f) * 2 ^ (prec f - 1)); [ring|].
      rewrite <- Z.pow_add_r by (unfold ieee in I; lia). f_equal. lia.
  Qed.

  (** ** Numbers near the limits of the integer types *)

  Lemma of_int_max w : 1 <= w <= 64 ->
    of_int u f (2 ^ w - 1) =
      Fin false (if w <=? prec f then (2 ^ w - 1) * one u else 2 ^ w * one u).
  Proof.
    intros Hw. assert (U := iu). assert (P := ip). assert (L := il). assert (O := one_pos).
    assert (Hh : u + 64 < hi f) by (unfold ieee in I; lia).
    assert (Hlu : lo f <= u) by (unfold ieee in I; lia).
    assert (Pw := p2le 1 w ltac:(lia)). change (2 ^ 1) with 2 in Pw.
    destruct (Z.leb_spec w (prec f)) as [Hle|Hgt].
    - apply of_int_exact; [lia|]. unfold one.
      pose proof (p2le w (prec f) ltac:(lia)).
      apply repr_intro; try lia.
      apply Z.lt_trans with (2 ^ w * 2 ^ u); [unfold one in O; nia|].
      rewrite <- Z.pow_add_r by lia. apply Z.pow_lt_mono_r; lia.
    - unfold of_int. rewrite Z.abs_eq by lia.
      replace (2 ^ w - 1 <? 0) with false by lia.
      unfold mk, round_q, exq. rewrite Z.div_1_r.
      assert (Hlog : Z.log2 ((2 ^ w - 1) * one u) = u + w - 1).
      { apply Z.log2_unique; [lia|].
        replace (Z.succ (u + w - 1)) with (w + u) by lia.
        replace (2 ^ (u + w - 1)) with (2 ^ (w - 1) * 2 ^ u)
          by (rewrite <- Z.pow_add_r by lia; f_equal; lia).
        rewrite (Z.pow_add_r 2 w u) by lia. unfold one in *.
        replace (2 ^ w) with (2 * 2 ^ (w - 1))
          by (rewrite <- Z.pow_succ_r by lia; f_equal; lia).
        pose proof (p2pos (w - 1) ltac:(lia)). nia. }
      rewrite Hlog. set (j := w - prec f).
      replace (Z.max (lo f) (u + w - 1 + 1 - prec f)) with (u + j) by lia.
      rewrite Z.mul_1_l, Z.pow_add_r by lia.
      assert (Pj := p2le 1 j ltac:(lia)). change (2 ^ 1) with 2 in Pj.
      assert (Ew : 2 ^ w = 2 ^ prec f * 2 ^ j) by (rewrite <- Z.pow_add_r by lia; f_equal; lia).
      assert (Pp := p2le 1 (prec f) ltac:(lia)). change (2 ^ 1) with 2 in Pp.
      assert (RN : rne ((2 ^ w - 1) * one u) (2 ^ u * 2 ^ j) = 2 ^ prec f).
      { unfold rne. fold (one u). rewrite (Z.mul_comm (one u) (2 ^ j)).
        rewrite Z.div_mul_cancel_r, Z.mul_mod_distr_r by lia.
        assert (Q : 2 ^ w - 1 = 2 ^ j * (2 ^ prec f - 1) + (2 ^ j - 1)) by lia.
        assert (B : 0 <= 2 ^ j - 1 < 2 ^ j \/ 2 ^ j < 2 ^ j - 1 <= 0) by lia.
        rewrite <- (Z.div_unique _ _ _ _ B Q), <- (Z.mod_unique _ _ _ _ B Q).
        destruct (Z.ltb_spec (2 * ((2 ^ j - 1) * one u)) (2 ^ j * one u)); [nia|].
        destruct (Z.ltb_spec (2 ^ j * one u) (2 * ((2 ^ j - 1) * one u))); [lia|].
        replace (Z.even (2 ^ prec f - 1)) with false; [lia|].
        rewrite Z.even_sub, Z.even_pow by lia. reflexivity. }
      rewrite RN. fold (one u).
      replace (2 ^ prec f * (one u * 2 ^ j)) with (2 ^ w * one u) by (rewrite Ew; ring).
      destruct (Z.leb_spec (2 ^ hi f) (2 ^ w * one u)) as [Hx|Hx]; [|reflexivity].
      exfalso. unfold one in Hx. rewrite <- Z.pow_add_r in Hx by lia.
      pose proof (Z.pow_lt_mono_r 2 (w + u) (hi f)). lia.
  Qed.

End U.
