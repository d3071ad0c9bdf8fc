From Coq Require Import List Arith ZArith Bool Lia Zquot.
From Coq Require Import ZifyBool ZifyNat.
From Verif Require Import Base BitModel BitSpec BitProof CharProof RatModel RatSpec.
Open Scope Z_scope.

(** * Greatest common divisors *)
Lemma gcd_half a b : Z.odd b = true -> Z.gcd (2 * a) b = Z.gcd a b.
Proof.
  intros O. apply Z.divide_antisym_nonneg; try apply Z.gcd_nonneg.
  - apply Z.gcd_greatest; [|apply Z.gcd_divide_r]. apply Z.gauss with 2; [apply Z.gcd_divide_l|].
    assert (D : (Z.gcd (Z.gcd (2 * a) b) 2 | 2)) by apply Z.gcd_divide_r.
    assert (D' : (Z.gcd (Z.gcd (2 * a) b) 2 | b)) by (eapply Z.divide_trans; [apply Z.gcd_divide_l|apply Z.gcd_divide_r]).
    pose proof (Z.gcd_nonneg (Z.gcd (2 * a) b) 2) as N. set (g := Z.gcd (Z.gcd (2 * a) b) 2) in *. clearbody g.
    assert (L : g <= 2) by (apply Z.divide_pos_le; [lia|exact D]).
    assert (C : g = 0 \/ g = 1 \/ g = 2) by lia. destruct C as [-> | [-> | ->]].
    + destruct D as [z ?]. lia.
    + reflexivity.
    + destruct D' as [z ->]. rewrite Z.odd_mul in O. cbn in O. now rewrite andb_false_r in O.
  - apply Z.gcd_greatest; [|apply Z.gcd_divide_r]. eapply Z.divide_trans; [apply Z.gcd_divide_l|]. exists 2. lia.
Qed.
Lemma even_half a : Z.odd a = false -> a = 2 * (a / 2).
Proof. intros O. pose proof (Z.div2_odd a) as H. rewrite O, Z.div2_div in H. cbn [Z.b2z] in H. lia. Qed.

(** ** gcd_binary *)
Section Bin.
  Variable md : bool.
  Variable p : ity.
  Lemma shr1 x : shr p x 1 = Ok (x / 2).
  Proof. rewrite shr_ok by (pose proof (wid_ge p); lia). now rewrite Z.shiftr_div_pow2 by lia. Qed.

  (** [a] is r[which], [b] the other element *)
  Lemma bin2 : forall (d : nat) (two : bool) (s a b : Z) (which : bool) (i j : Z),
    0 < b < 2 ^ j -> 0 <= a < 2 ^ i -> 1 <= i -> 1 <= j -> Z.odd b = true ->
    (if two then Z.odd a = false else 0 < a) -> 0 <= s < wid p ->
    (forall g, Z.gcd a b = g -> g * 2 ^ s <= tmax p) ->
    3 * (i + j) - (if two then 1 else if Z.odd a then 0 else 2) <= Z.of_nat d ->
    gcd_binary_2 md p d two s (if which then b else a) (if which then a else b) which = Ok (Z.gcd a b * 2 ^ s).
  Proof.
    induction d as [|d IH]; intros two s a b which i j Hb Ha Hi Hj Ob Ht Hs Hg Hd; [destruct two, (Z.odd a); lia|].
    cbn [gcd_binary_2].
    assert (Ec : (if which then if which then a else b else if which then b else a) = a) by now destruct which.
    assert (Eo : (if which then if which then b else a else if which then a else b) = b) by now destruct which.
    rewrite Ec, Eo. clear Ec Eo. destruct two.
    - destruct (Z.eqb_spec a 0) as [-> | N]; cbn [negb].
      + rewrite Z.gcd_0_l in *. rewrite (Z.abs_eq b) in * by lia. specialize (Hg b eq_refl).
        assert (P := pow_pos s ltac:(lia)). assert (V : is_val p (b * 2 ^ s)) by (apply pos_val; nia).
        rewrite shl_ok; [now rewrite conv_id|exact Hs|]. unfold is_val in V. pose proof (wid_half p). pose proof (half_pos p).
        destruct (sgn p); [|now left]. right. right. lia.
      + apply (IH false s a b which i j); try assumption; try lia. rewrite Ht. lia.
    - destruct (Z.odd a) eqn:Oa; cbn [negb].
      + assert (Oab : Z.odd (a - b) = false) by (rewrite Z.odd_sub, Oa, Ob; reflexivity).
        assert (Oba : Z.odd (b - a) = false) by (rewrite Z.odd_sub, Oa, Ob; reflexivity).
        destruct (Z.ltb_spec a b) as [L|L].
        * assert (G : Z.gcd (b - a) a = Z.gcd a b) by (now rewrite Z.gcd_comm, Z.gcd_sub_diag_r).
          assert (R : gcd_binary_2 md p d true s (if negb which then a else b - a) (if negb which then b - a else a) (negb which) = Ok (Z.gcd a b * 2 ^ s)).
          { rewrite <- G. apply (IH true s (b - a) a (negb which) j i); try assumption; try (intros g Eg; apply Hg; now rewrite <- G); try lia. }
          destruct which; exact R.
        * assert (G : Z.gcd (a - b) b = Z.gcd a b) by (rewrite Z.gcd_comm, Z.gcd_sub_diag_r; apply Z.gcd_comm).
          assert (R : gcd_binary_2 md p d true s (if which then b else a - b) (if which then a - b else b) which = Ok (Z.gcd a b * 2 ^ s)).
          { rewrite <- G. apply (IH true s (a - b) b which i j); try assumption; try (intros g Eg; apply Hg; now rewrite <- G); try lia. }
          destruct which; exact R.
      + assert (E := even_half a Oa). assert (G : Z.gcd (a / 2) b = Z.gcd a b) by (rewrite E at 2; now rewrite gcd_half).
        assert (Hi2 : 2 <= i) by (assert (C : i = 1 \/ 2 <= i) by lia; destruct C as [-> | C]; [change (2 ^ 1) with 2 in Ha|]; lia).
        assert (Ei : 2 ^ i = 2 * 2 ^ (i - 1)) by (rewrite <- Z.pow_succ_r by lia; f_equal; lia).
        assert (R : gcd_binary_2 md p d false s (if which then b else a / 2) (if which then a / 2 else b) which = Ok (Z.gcd a b * 2 ^ s)).
        { rewrite <- G. apply (IH false s (a / 2) b which (i - 1) j); try assumption; try (intros g Eg; apply Hg; now rewrite <- G); try lia.
          destruct (Z.odd (a / 2)); lia. }
        destruct which; rewrite shr1; cbn [bind]; exact R.
  Qed.

  Lemma bin1 : forall (r : nat) (u v s i : Z), 0 < u < 2 ^ i -> 0 < v < 2 ^ i -> 1 <= i -> 0 <= s -> s + i <= wid p ->
    Z.gcd u v * 2 ^ s <= tmax p -> 6 * i + 1 <= Z.of_nat r ->
    gcd_binary_1 md p r u v s = Ok (Z.gcd u v * 2 ^ s).
  Proof.
    induction r as [|r IH]; intros u v s i Hu Hv Hi Hs Hw Hg Hr; [lia|]. cbn [gcd_binary_1].
    destruct (negb (Z.odd u) && negb (Z.odd v)) eqn:C.
    - apply andb_true_iff in C. destruct C as [Cu Cv]. apply negb_true_iff in Cu, Cv.
      assert (Eu := even_half u Cu). assert (Ev := even_half v Cv).
      assert (Hi2 : 2 <= i) by (assert (C : i = 1 \/ 2 <= i) by lia; destruct C as [-> | C]; [change (2 ^ 1) with 2 in Hu|]; lia).
      assert (Ei : 2 ^ i = 2 * 2 ^ (i - 1)) by (rewrite <- Z.pow_succ_r by lia; f_equal; lia).
      assert (Es : 2 ^ (s + 1) = 2 * 2 ^ s) by (rewrite Z.pow_add_r by lia; lia).
      assert (G : Z.gcd u v * 2 ^ s = Z.gcd (u / 2) (v / 2) * 2 ^ (s + 1)).
      { rewrite Es. rewrite Eu at 1. rewrite Ev at 1. rewrite Z.gcd_mul_mono_l_nonneg by lia. lia. }
      rewrite !shr1. cbn [bind]. rewrite G in *. apply (IH _ _ _ (i - 1)); try lia.
    - destruct (Z.odd u) eqn:Ou.
      + rewrite Z.gcd_comm in Hg |- *. apply (bin2 r false s v u true i i); try assumption; try (intros g <-; exact Hg); try lia.
        destruct (Z.odd v); lia.
      + cbn [negb andb] in C. apply negb_false_iff in C. apply (bin2 r false s u v false i i); try assumption; try (intros g <-; exact Hg); try lia.
        destruct (Z.odd u); lia.
  Qed.
End Bin.

Lemma uns_tmax t x : 0 <= x < 2 ^ wid t <-> 0 <= x <= tmax (uns t).
Proof. change (tmax (uns t)) with (2 ^ wid t - 1). lia. Qed.
Lemma tmax_promote il t : tmax t <= tmax (promote il t).
Proof.
  unfold promote. destruct (Nat.ltb_spec (lg t) il) as [L|L]; [|lia].
  assert (W : wid t + 8 <= wid (int_t il)).
  { unfold wid, bytes, int_t. cbn [lg]. replace (Z.of_nat il) with (Z.of_nat (il - lg t) + Z.of_nat (lg t)) by lia.
    rewrite Z.pow_add_r by lia. pose proof (Z.pow_le_mono_r 2 1 (Z.of_nat (il - lg t)) ltac:(lia) ltac:(lia)).
    pose proof (pow_pos (Z.of_nat (lg t)) ltac:(lia)). nia. }
  pose proof (pow_mono (wid t) (wid (int_t il) - 1) ltac:(pose proof (wid_ge t); lia)).
  pose proof (half_pos t). pose proof (wid_half t). unfold tmax. unfold int_t at 1. cbn [sgn]. destruct (sgn t); lia.
Qed.
Lemma wid_promote il t : wid t <= wid (promote il t).
Proof.
  unfold promote. destruct (Nat.ltb_spec (lg t) il) as [L|L]; [|lia].
  unfold wid, bytes, int_t. cbn [lg]. pose proof (Z.pow_le_mono_r 2 (Z.of_nat (lg t)) (Z.of_nat il)). lia.
Qed.
Lemma gcd_le a b m : 0 <= a <= m -> 0 <= b <= m -> Z.gcd a b <= m.
Proof.
  intros Ha Hb. destruct (Z.eq_dec a 0) as [-> | N]; [rewrite Z.gcd_0_l; lia|].
  apply Z.le_trans with a; [|lia]. apply Z.divide_pos_le; [lia|apply Z.gcd_divide_l].
Qed.

Lemma gcd_binary_lemma il md t r u v : sgn t = false -> is_val t u -> is_val t v -> 6 * wid t + 1 <= Z.of_nat r ->
  gcd_binary il md t r u v = Ok (Z.gcd u v).
Proof.
  intros S Hu Hv Hr. pose proof (wid_ge t) as W. unfold is_val in Hu, Hv. rewrite S in Hu, Hv.
  assert (G : 0 <= Z.gcd u v <= tmax t).
  { split; [apply Z.gcd_nonneg|]. apply gcd_le; unfold tmax; rewrite S; lia. }
  assert (K : is_val t (Z.gcd u v)) by now apply pos_val.
  unfold gcd_binary. destruct (Z.eqb_spec u 0) as [-> | Nu]; cbn [negb andb];
    [|destruct (Z.eqb_spec v 0) as [-> | Nv]; cbn [negb andb]].
  - rewrite Z.gcd_0_l, (Z.abs_eq v) in * by lia. rewrite Z.add_0_l, arith_pos by lia. cbn [bind]. now rewrite conv_id.
  - rewrite Z.gcd_0_r, (Z.abs_eq u) in * by lia. rewrite Z.add_0_r, arith_pos by lia. cbn [bind]. now rewrite conv_id.
  - rewrite (bin1 md (promote il t) r u v 0 (wid t)); try lia.
    + cbn [bind]. change (2 ^ 0) with 1. rewrite Z.mul_1_r. now rewrite conv_id.
    + pose proof (wid_promote il t). lia.
    + pose proof (tmax_promote il t). change (2 ^ 0) with 1. lia.
Qed.

(** ** sprout::abs *)
Lemma sgn_promote il t : sgn t = true -> sgn (promote il t) = true.
Proof. intros S. unfold promote. destruct (_ <? _)%nat; [reflexivity|exact S]. Qed.
Lemma signed_range t z : sgn t = true -> is_val t z <-> tmin t <= z <= tmax t.
Proof. intros S. unfold is_val, tmin, tmax. rewrite S. lia. Qed.
Lemma tmin_tmax t : sgn t = true -> tmin t = - tmax t - 1.
Proof. intros S. unfold tmin, tmax. rewrite S. lia. Qed.
Lemma abs_ok il t j : sgn t = true -> Z.abs j <= tmax t -> abs_c il t j = Ok (Z.abs j).
Proof.
  intros S H. unfold abs_c. destruct (Z.ltb_spec j 0) as [L|L].
  - rewrite arith_pos by lia. cbn [bind]. rewrite conv_id by (apply pos_val; lia). f_equal. lia.
  - f_equal. lia.
Qed.
Lemma abs_ub il t : sgn t = true -> (il <= lg t)%nat -> abs_c il t (tmin t) = UB.
Proof.
  intros S L. assert (P : promote il t = t) by (unfold promote; destruct (Nat.ltb_spec (lg t) il); [lia|reflexivity]).
  unfold abs_c. rewrite P. pose proof (tmin_tmax t S). pose proof (tmax_ge t).
  destruct (Z.ltb_spec (tmin t) 0); [|lia]. unfold arith. rewrite S.
  destruct (Z.leb_spec (tmin t) (- tmin t)), (Z.leb_spec (- tmin t) (tmax t)); try lia; reflexivity.
Qed.
Lemma abs_narrow il t j : sgn t = true -> (lg t < il)%nat -> is_val t j -> exists v, abs_c il t j = Ok v /\ conv (uns t) v = Z.abs j.
Proof.
  intros S L V. pose proof (proj1 (signed_range t j S) V) as R. pose proof (tmin_tmax t S) as M.
  assert (I : 0 <= Z.abs j < 2 ^ wid t) by (pose proof (wid_half t); pose proof (half_pos t); unfold tmin, tmax in *; rewrite S in *; lia).
  assert (U : conv (uns t) (Z.abs j) = Z.abs j) by (apply conv_id, uns_val; exact I).
  unfold abs_c. destruct (Z.ltb_spec j 0) as [N|N].
  - replace (- j) with (Z.abs j) by lia.
    assert (A : arith (promote il t) (Z.abs j) = Ok (Z.abs j)).
    { replace (promote il t) with (promote il (uns t)) by (unfold promote; cbn [lg uns]; destruct (Nat.ltb_spec (lg t) il); [reflexivity|lia]). apply arith_pos. now apply uns_tmax. }
    rewrite A. cbn [bind]. exists (conv t (Z.abs j)). split; [reflexivity|]. rewrite conv_conv; [exact U|rewrite wid_uns; lia].
  - exists j. split; [reflexivity|]. rewrite (Z.abs_eq j) in * by lia. exact U.
Qed.

Lemma gcd_signed il md t r a b : sgn t = true -> Z.abs a <= tmax t -> Z.abs b <= tmax t -> 6 * wid t + 1 <= Z.of_nat r ->
  gcd il md t r a b = Ok (Z.gcd a b).
Proof.
  intros S Ha Hb Hr. unfold gcd. rewrite S, !abs_ok by assumption. cbn [bind].
  assert (T : tmax t < 2 ^ wid t) by (unfold tmax; rewrite S; pose proof (wid_half t); pose proof (half_pos t); lia).
  rewrite !(conv_id (uns t)) by (apply uns_val; lia).
  rewrite gcd_binary_lemma; [|reflexivity|apply uns_val; lia|apply uns_val; lia|exact Hr]. cbn [bind].
  rewrite Z.gcd_abs_l, Z.gcd_abs_r. rewrite conv_id; [reflexivity|]. apply pos_val. split; [apply Z.gcd_nonneg|].
  rewrite <- Z.gcd_abs_l, <- Z.gcd_abs_r. apply gcd_le; lia.
Qed.
Lemma gcd_lemma il md t r a b : is_val t a -> is_val t b ->
  (sgn t = true -> Z.abs a <= tmax t /\ Z.abs b <= tmax t) -> 6 * wid t + 1 <= Z.of_nat r ->
  gcd il md t r a b = Ok (Z.gcd a b).
Proof.
  intros Ha Hb H Hr. destruct (sgn t) eqn:S; [destruct (H eq_refl); now apply gcd_signed|].
  unfold gcd. rewrite S. now apply gcd_binary_lemma.
Qed.
Lemma gcd_min il md t r b : sgn t = true -> (il <= lg t)%nat ->
  gcd il md t r (tmin t) b = UB.
Proof. intros S L. unfold gcd. now rewrite S, abs_ub. Qed.
Lemma gcd_min_r il md t r a : sgn t = true -> (il <= lg t)%nat -> Z.abs a <= tmax t ->
  gcd il md t r a (tmin t) = UB.
Proof. intros S L H. unfold gcd. rewrite S, abs_ok by assumption. cbn [bind]. now rewrite abs_ub. Qed.
Lemma gcd_narrow il md t r a b : sgn t = true -> (lg t < il)%nat -> is_val t a -> is_val t b ->
  Z.gcd a b <= tmax t -> 6 * wid t + 1 <= Z.of_nat r -> gcd il md t r a b = Ok (Z.gcd a b).
Proof.
  intros S L Ha Hb Hg Hr. unfold gcd. rewrite S.
  destruct (abs_narrow il t a S L Ha) as (x & Ex & Cx). destruct (abs_narrow il t b S L Hb) as (y & Ey & Cy).
  rewrite Ex. cbn [bind]. rewrite Ey. cbn [bind]. rewrite gcd_binary_lemma; [|reflexivity|apply conv_val|apply conv_val|exact Hr].
  cbn [bind]. rewrite Cx, Cy, Z.gcd_abs_l, Z.gcd_abs_r. rewrite conv_id; [reflexivity|]. apply pos_val.
  pose proof (Z.gcd_nonneg a b). lia.
Qed.
