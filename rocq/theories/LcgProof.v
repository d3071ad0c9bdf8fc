From Coq Require Import List Arith ZArith Bool Lia Znumtheory Zpow_facts.
From Coq Require Import ZifyBool ZifyNat.
From Verif Require Import Base BitModel BitSpec BitProof CharProof RatModel RatProof RatProof2 LcgModel LcgSpec.
Open Scope Z_scope.

Lemma pow2_true m : 0 < m -> pow2 m = true -> power_of_2 m.
Proof.
  intros M H. unfold pow2 in H. apply Z.eqb_eq in H. exists (Z.log2 m). split; [apply Z.log2_nonneg|].
  destruct (Z.log2_spec m M) as [L U]. destruct (Z.eq_dec m (2 ^ Z.log2 m)) as [|N]; [assumption|exfalso].
  assert (B : Z.testbit (Z.land (m - 1) m) (Z.log2 m) = true).
  { rewrite Z.land_spec. apply andb_true_iff. split; [|apply Z.bit_log2; lia].
    replace (Z.log2 m) with (Z.log2 (m - 1)); [apply Z.bit_log2; pose proof (Z.pow_pos_nonneg 2 (Z.log2 m)); pose proof (Z.log2_nonneg m); lia|].
    apply Z.log2_unique; [apply Z.log2_nonneg|lia]. }
  rewrite H, Z.bits_0 in B. discriminate.
Qed.
Lemma pow2_false m : pow2 m = false -> ~ power_of_2 m.
Proof.
  intros H (k & K & ->). unfold pow2 in H. apply Z.eqb_neq in H. apply H.
  replace (2 ^ k - 1) with (Z.ones k) by (rewrite Z.ones_equiv; lia). rewrite Z.land_comm, Z.land_ones by exact K.
  apply Z_mod_same_full.
Qed.
Lemma mask_mod m v : power_of_2 m -> Z.land v (m - 1) = v mod m.
Proof.
  intros (k & K & ->). replace (2 ^ k - 1) with (Z.ones k) by (rewrite Z.ones_equiv; lia). apply Z.land_ones, K.
Qed.
Lemma quot_div x y : 0 <= x -> 0 < y -> Z.quot x y = x / y.
Proof. intros. apply Z.quot_div_nonneg; lia. Qed.
Lemma rem_mod x y : 0 <= x -> 0 < y -> Z.rem x y = x mod y.
Proof. intros. apply Z.rem_mod_nonneg; lia. Qed.
Lemma le_div a b m : 0 < a -> m <= b / a <-> a * m <= b.
Proof.
  intros A. split; intros H.
  - pose proof (Z.mul_div_le b a A). nia.
  - apply Z.div_le_lower_bound; lia.
Qed.

Section Mod.
  Variable il : nat.
  Variable t : ity.
  Variable m : Z.
  Hypothesis HM : modulus_ok t m.
  Let p := promote il t.
  Let u := promote il (uns t).

  Lemma Mpos : 0 < m. Proof. destruct HM. lia. Qed.
  Lemma Mmax : m <= tmax t. Proof. destruct HM. lia. Qed.
  Lemma ex_ok z : 0 <= z <= tmax t -> bind (arith p z) (fun v => Ok (conv t v)) = Ok z.
  Proof. intros H. unfold p. rewrite arith_pos by exact H. cbn [bind]. rewrite conv_id by (apply pos_val; exact H). reflexivity. Qed.
  Lemma ar z : 0 <= z <= tmax t -> arith p z = Ok z.
  Proof. apply arith_pos. Qed.
  Lemma okp x : 0 <= x <= tmax t -> okv t x.
  Proof. intros H. rewrite okv_range. destruct (sgn t); lia. Qed.
  Lemma cd x y : 0 <= x <= tmax t -> 0 < y -> cdiv p x y = Ok (x / y).
  Proof. intros H Y. unfold p. rewrite cdiv_ok by (try apply okp; lia). now rewrite quot_div by lia. Qed.
  Lemma cr x y : 0 <= x <= tmax t -> 0 < y -> crem p x y = Ok (x mod y).
  Proof. intros H Y. unfold p. rewrite crem_ok by (try apply okp; lia). now rewrite rem_mod by lia. Qed.
  Lemma tmax_wid : tmax t < 2 ^ wid t.
  Proof. unfold tmax. pose proof (wid_half t). pose proof (half_pos t). destruct (sgn t); lia. Qed.
  Lemma wid64 : wid t <= 64.
  Proof.
    destruct HM as [_ L]. unfold wid, bytes. assert (2 ^ Z.of_nat (lg t) <= 2 ^ 3) by (apply pow_mono; lia).
    change (2 ^ 3) with 8 in *. lia.
  Qed.
  Lemma conv_uns x : 0 <= x <= tmax t -> conv (uns t) x = x.
  Proof. intros H. apply conv_id, uns_val. pose proof tmax_wid. lia. Qed.
  Lemma conv_umax x : 0 <= x <= tmax t -> conv umax x = x.
  Proof.
    intros H. apply conv_id. change umax with (uns umax). apply uns_val. change (wid umax) with 64.
    pose proof tmax_wid. pose proof (wid_ge t). assert (2 ^ wid t <= 2 ^ 64) by (apply pow_mono; pose proof wid64; lia). lia.
  Qed.

  (** the unsigned computation modulo a power of 2 *)
  Lemma m_half : power_of_2 m -> m <= 2 ^ (wid t - 1) /\ (m | 2 ^ wid t).
  Proof.
    intros (k & K & E). pose proof Mmax. pose proof tmax_wid. pose proof (wid_ge t).
    assert (k < wid t). { apply (Z.pow_lt_mono_r_iff 2); lia. }
    rewrite E. split; [apply pow_mono; lia|]. exists (2 ^ (wid t - k)). rewrite <- Z.pow_add_r by lia. f_equal. lia.
  Qed.
  Lemma uar z : power_of_2 m -> 0 <= z < 2 ^ (2 * wid t - 1) ->
    exists v, arith u z = Ok v /\ v mod m = z mod m /\ 0 <= v <= z.
  Proof.
    intros P H. destruct (m_half P) as [Mh Md]. unfold u. destruct (Nat.ltb (lg t) il) eqn:L.
    - exists z. split; [|split; [reflexivity|lia]]. apply arith_ok. unfold promote. cbn [uns lg]. rewrite L.
      apply val_small. split; [lia|]. apply Nat.ltb_lt in L. destruct (promote_narrow il t L) as [E W]. rewrite E in W.
      eapply Z.lt_le_trans; [apply H|]. apply pow_mono. pose proof (wid_ge t). lia.
    - unfold promote. cbn [uns lg]. rewrite L. exists (z mod 2 ^ wid t). split; [reflexivity|]. split.
      + symmetry. apply Zmod_div_mod; [apply Mpos|pose proof (wid_ge t); apply pow_pos; lia|exact Md].
      + pose proof (Z.mod_pos_bound z (2 ^ wid t)). pose proof (wid_ge t). pose proof (pow_pos (wid t)). split; [lia|].
        apply Z.mod_le; lia.
  Qed.
  Lemma wid2 : 2 ^ (2 * wid t - 1) = 2 * (2 ^ (wid t - 1) * 2 ^ (wid t - 1)).
  Proof.
    rewrite <- Z.pow_add_r by (pose proof (wid_ge t); lia). rewrite <- Z.pow_succ_r by (pose proof (wid_ge t); lia). f_equal. lia.
  Qed.
  Lemma mod_res z : residue m (z mod m).
  Proof. apply Z.mod_pos_bound, Mpos. Qed.
  Lemma res_conv z : conv t (z mod m) = z mod m.
  Proof. apply conv_id, pos_val. pose proof (mod_res z). pose proof Mmax. unfold residue in *. lia. Qed.

  (** ** add *)
  Lemma add_ok x c : residue m x -> residue m c -> cm_add il t m x c = Ok ((x + c) mod m).
  Proof.
    unfold residue. intros Hx Hc. pose proof Mpos. pose proof Mmax. unfold cm_add. fold p u. destruct (pow2 m) eqn:P.
    - apply pow2_true in P; [|lia]. destruct (m_half P) as [Mh _]. rewrite !conv_uns by lia.
      destruct (uar (x + c) P) as (v & E & V & _). { rewrite wid2. pose proof (half_pos t). nia. }
      rewrite E. cbn [bind]. rewrite mask_mod, V by exact P. now rewrite res_conv.
    - destruct (Z.eqb_spec c 0) as [-> | N]. { now rewrite Z.add_0_r, Z.mod_small by lia. }
      rewrite ar by lia. cbn [bind]. destruct (Z.ltb_spec x (m - c)).
      + rewrite ex_ok by lia. now rewrite Z.mod_small by lia.
      + rewrite ex_ok by lia. f_equal. apply (Z.mod_unique _ _ 1); lia.
  Qed.

  (** ** mult *)
  Lemma sub_ok a b : residue m a -> residue m b -> cm_sub il t m a b = Ok ((a - b) mod m).
  Proof.
    unfold residue. intros Ha Hb. pose proof Mpos. pose proof Mmax. unfold cm_sub. fold p. destruct (Z.ltb_spec a b).
    - rewrite ar by lia. cbn [bind]. rewrite ex_ok by lia. f_equal. apply (Z.mod_unique _ _ (-1)); lia.
    - rewrite ex_ok by lia. now rewrite Z.mod_small by lia.
  Qed.
  Lemma schrage a x : 0 < a -> residue m x -> m mod a < m / a ->
    residue m (a * (x mod (m / a))) /\ residue m (m mod a * (x / (m / a))) /\
    (a * (x mod (m / a)) - m mod a * (x / (m / a))) mod m = (a * x) mod m.
  Proof.
    unfold residue. intros A X R. pose proof Mpos as M. pose proof (Z.div_mod m a ltac:(lia)) as D. pose proof (Z.mod_pos_bound m a A) as B.
    set (q := m / a) in *. set (r := m mod a) in *. assert (Q : 0 < q) by lia.
    pose proof (Z.div_mod x q ltac:(lia)) as Dx. pose proof (Z.mod_pos_bound x q Q) as Bx. set (k := x / q) in *. set (j := x mod q) in *.
    assert (K : 0 <= k) by (apply Z.div_pos; lia).
    assert (a * j <= a * (q - 1)) by nia. split; [nia|]. split; [split; [nia|]|].
    - assert (r * k <= q * k) by nia. destruct (Z.eq_dec k 0) as [-> |]; [nia|]. destruct (Z_le_gt_dec r 0); [nia|]. nia.
    - replace (a * x) with (a * j - r * k + k * m) by nia. symmetry. apply Z_mod_plus_full.
  Qed.
  Lemma general_ok a x : residue m a -> residue m x -> fits m -> cm_general t m a x = Ok ((a * x) mod m).
  Proof.
    unfold residue, fits. intros A X F. pose proof Mpos. pose proof Mmax. unfold cm_general. rewrite !conv_umax by lia.
    change (tmax umax) with (2 ^ 64 - 1). rewrite quot_div by lia.
    assert (L : m <= (2 ^ 64 - 1) / m) by (apply le_div; lia). destruct (Z.leb_spec m ((2 ^ 64 - 1) / m)); [|lia].
    assert (E : arith umax (a * x) = Ok (a * x)).
    { apply arith_ok. change umax with (uns umax). apply uns_val. change (wid umax) with 64. nia. }
    rewrite E. cbn [bind]. unfold crem. cbn [umax sgn andb]. destruct (Z.eqb_spec m 0); [lia|]. cbn [orb bind].
    rewrite rem_mod by nia. now rewrite res_conv.
  Qed.
  Lemma general_ub a x : ~ fits m -> cm_general t m a x = UB.
  Proof.
    unfold fits. intros F. pose proof Mpos. pose proof Mmax. unfold cm_general. rewrite conv_umax by lia.
    change (tmax umax) with (2 ^ 64 - 1). rewrite quot_div by lia.
    destruct (Z.leb_spec m ((2 ^ 64 - 1) / m)) as [L|]; [|reflexivity]. apply le_div in L; lia.
  Qed.
  Lemma mult_ok a x : residue m a -> residue m x -> mult_def t m a -> cm_mult il t m a x = Ok ((a * x) mod m).
  Proof.
    intros Ra Rx D. pose proof Ra as Ra'. pose proof Rx as Rx'. unfold residue in Ra', Rx'. pose proof Mpos. pose proof Mmax.
    unfold cm_mult. fold p u. destruct (pow2 m) eqn:P.
    { apply pow2_true in P; [|lia]. destruct (m_half P) as [Mh _]. rewrite !conv_uns by lia.
      destruct (uar (a * x) P) as (v & E & V & _). { rewrite wid2. pose proof (half_pos t). nia. }
      rewrite E. cbn [bind]. rewrite mask_mod, V by exact P. now rewrite res_conv. }
    apply pow2_false in P. destruct (Z.eqb_spec a 0) as [-> | N0]; [now rewrite Z.mul_0_l, Z.mod_0_l by lia|].
    destruct (Z.eqb_spec a 1) as [-> | N1]; [now rewrite Z.mul_1_l, Z.mod_small by lia|].
    rewrite cd by lia. cbn [bind]. destruct (Z.leb_spec m (tmax t / a)) as [L|L].
    { apply le_div in L; [|lia]. unfold cm_small. fold p. assert (0 <= a * x <= tmax t) by nia. rewrite ar by assumption. cbn [bind].
      rewrite cr by assumption || lia. cbn [bind]. now rewrite res_conv. }
    assert (L' : ~ a * m <= tmax t). { intros K. apply (le_div a (tmax t) m) in K; lia. }
    destruct (sgn t) eqn:St.
    - rewrite cr, cd by lia. cbn [bind]. destruct (Z.ltb_spec (m mod a) (m / a)) as [G|G].
      + destruct (schrage a x ltac:(lia) Rx G) as (R1 & R2 & E). unfold cm_schrage. fold p. rewrite cd, cr by lia. cbn [bind].
        destruct (Z.ltb_spec (m mod a) (m / a)); [|lia]. pose proof (Z.mod_pos_bound m a ltac:(lia)).
        unfold residue in R1, R2. rewrite cr by lia. cbn [bind]. rewrite ex_ok by lia. cbn [bind]. rewrite cd by lia. cbn [bind].
        rewrite ex_ok by lia. cbn [bind]. rewrite sub_ok by assumption. now rewrite E.
      + apply general_ok; try assumption. destruct D as [?|[?|[?|[[_ ?]|?]]]]; [tauto|lia|lia|lia|assumption].
    - cbn [bind]. apply general_ok; try assumption. destruct D as [?|[?|[?|[[? _]|?]]]]; [tauto|lia|lia|congruence|assumption].
  Qed.
  Lemma mult_ub a x : residue m a -> residue m x -> ~ mult_def t m a -> cm_mult il t m a x = UB.
  Proof.
    intros Ra Rx D. pose proof Ra as Ra'. pose proof Rx as Rx'. unfold residue in Ra', Rx'. pose proof Mpos. pose proof Mmax.
    unfold mult_def in D. unfold cm_mult. fold p u. destruct (pow2 m) eqn:P; [apply pow2_true in P; [tauto|lia]|].
    destruct (Z.eqb_spec a 0); [exfalso; apply D; right; left; lia|]. destruct (Z.eqb_spec a 1); [exfalso; apply D; right; left; lia|].
    rewrite cd by lia. cbn [bind]. destruct (Z.leb_spec m (tmax t / a)) as [L|L]; [apply le_div in L; [tauto|lia]|].
    destruct (sgn t) eqn:St.
    - rewrite cr, cd by lia. cbn [bind]. destruct (Z.ltb_spec (m mod a) (m / a)) as [G|G]; [tauto|]. apply general_ub. tauto.
    - cbn [bind]. apply general_ub. tauto.
  Qed.
  Lemma mult_add_ok a x c : residue m a -> residue m x -> residue m c -> mult_def t m a ->
    cm_mult_add il t m a x c = Ok ((a * x + c) mod m).
  Proof.
    intros Ra Rx Rc D. pose proof Ra as Ra'. pose proof Rx as Rx'. pose proof Rc as Rc'. unfold residue in Ra', Rx', Rc'. pose proof Mpos. pose proof Mmax.
    unfold cm_mult_add. fold p u. destruct (pow2 m) eqn:P.
    { apply pow2_true in P; [|lia]. destruct (m_half P) as [Mh _]. rewrite !conv_uns by lia. pose proof (half_pos t). pose proof wid2.
      destruct (uar (a * x) P) as (v & E & V & B); [nia|]. rewrite E. cbn [bind].
      destruct (uar (v + c) P) as (w & E' & W & _); [nia|]. rewrite E'. cbn [bind].
      rewrite mask_mod, W by exact P. rewrite res_conv. f_equal. rewrite <- Z.add_mod_idemp_l, V, Z.add_mod_idemp_l by lia. reflexivity. }
    destruct (Z.eqb_spec a 0) as [-> | N0]; [now rewrite Z.mul_0_l, Z.mod_small by lia|].
    rewrite ar by lia. cbn [bind]. rewrite cd by lia. cbn [bind]. destruct (Z.leb_spec m ((tmax t - c) / a)) as [L|L].
    - apply le_div in L; [|lia]. assert (0 <= a * x /\ a * x + c <= tmax t) by nia. rewrite ar by lia. cbn [bind]. rewrite ar by lia. cbn [bind].
      rewrite cr by lia. cbn [bind]. now rewrite res_conv.
    - rewrite mult_ok by assumption. cbn [bind]. rewrite add_ok by (assumption || apply mod_res). f_equal.
      rewrite Z.add_mod_idemp_l by lia. reflexivity.
  Qed.
  Lemma mult_add_ub a x c : residue m a -> residue m x -> residue m c -> ~ mult_def t m a ->
    cm_mult_add il t m a x c = UB.
  Proof.
    intros Ra Rx Rc D. pose proof Ra as Ra'. pose proof Rx as Rx'. pose proof Rc as Rc'. unfold residue in Ra', Rx', Rc'. pose proof Mpos. pose proof Mmax.
    unfold cm_mult_add. fold p u. destruct (pow2 m) eqn:P; [exfalso; apply D; left; apply pow2_true; [lia|exact P]|].
    destruct (Z.eqb_spec a 0); [exfalso; apply D; right; left; lia|].
    rewrite ar by lia. cbn [bind]. rewrite cd by lia. cbn [bind]. destruct (Z.leb_spec m ((tmax t - c) / a)) as [L|L].
    - exfalso. apply D. right. right. left. apply le_div in L; lia.
    - rewrite mult_ub by assumption. reflexivity.
  Qed.

  (** ** pow *)
  Lemma fits_def a : power_of_2 m \/ fits m -> mult_def t m a.
  Proof. unfold mult_def. tauto. Qed.
  Lemma pow_1_ok : forall (r : nat) (a e v : Z) (j : nat), power_of_2 m \/ fits m -> residue m a -> residue m v -> 0 <= e < 2 ^ Z.of_nat j -> (j < r)%nat ->
    cm_pow_1 il t m r a e v = Ok ((v * a ^ e) mod m).
  Proof.
    induction r as [|r IH]; intros a e v j F A V E J; [lia|]. cbn [cm_pow_1]. pose proof Mpos as M.
    destruct (Z.eqb_spec e 0) as [-> | N]; cbn [negb].
    { rewrite Z.pow_0_r, Z.mul_1_r, Z.mod_small by exact V. reflexivity. }
    rewrite mult_ok by (assumption || apply fits_def, F). cbn [bind].
    destruct j as [|j]; [change (2 ^ Z.of_nat 0) with 1 in E; lia|]. rewrite Nat2Z.inj_succ, Z.pow_succ_r in E by lia.
    pose proof (Z.div_mod e 2 ltac:(lia)) as De. pose proof (Z.mod_pos_bound e 2 ltac:(lia)) as Be.
    assert (Eh : 0 <= e / 2 < 2 ^ Z.of_nat j) by lia.
    assert (SQ : forall w, (w * ((a * a) mod m) ^ (e / 2)) mod m = (w * a ^ (2 * (e / 2))) mod m).
    { intros w. rewrite Z.pow_mul_r by lia. rewrite Z.pow_2_r. rewrite <- Z.mul_mod_idemp_r by lia.
      rewrite <- (Z.mul_mod_idemp_r w ((a * a) ^ (e / 2))) by lia. do 2 f_equal. symmetry. apply Zpower_mod. exact M. }
    destruct (Z.eqb_spec (e mod 2) 1) as [O|O].
    - rewrite mult_ok by (assumption || apply fits_def, F). cbn [bind].
      rewrite (IH _ _ _ j) by (try assumption; try lia; apply mod_res). f_equal. rewrite SQ, Z.mul_mod_idemp_l by lia.
      f_equal. replace e with (2 * (e / 2) + 1) at 2 by lia. rewrite Z.pow_add_r, Z.pow_1_r by lia. ring.
    - cbn [bind]. rewrite (IH _ _ _ j) by (try assumption; try lia; apply mod_res). f_equal. rewrite SQ. do 3 f_equal. lia.
  Qed.
  Lemma pow_ok a e r : power_of_2 m \/ fits m -> 1 < m -> residue m a -> 0 <= e < 2 ^ 64 -> (65 <= r)%nat ->
    cm_pow il t m r a e = Ok (a ^ e mod m).
  Proof.
    intros F M A E R. unfold cm_pow. rewrite (pow_1_ok r a e 1 64) by (try assumption; try lia; unfold residue; lia).
    now rewrite Z.mul_1_l.
  Qed.

  (** ** invert *)
  Lemma invert_1_ok : forall (r : nat) (l1 l2 n q c : Z) (j : nat),
    0 < n < q -> 0 <= l1 -> 0 < l2 -> l1 * n + l2 * q = m -> (m | l2 * c - n) -> (m | l1 * c + q) -> Z.gcd n q = Z.gcd c m -> l2 < m ->
    n < 2 ^ Z.of_nat j -> (j < r)%nat ->
    exists y, invert_1 il t m r l1 l2 n q = Ok y /\ residue m y /\ (m | y * c - Z.gcd c m).
  Proof.
    induction r as [|r IH]; intros l1 l2 n q c j Hn H1 H2 I D2 D1 G L2 Hj Hr; [lia|]. cbn [invert_1]. fold p.
    pose proof Mpos as M. pose proof Mmax as MM.
    assert (Q : q <= m) by (clear - I Hn H1 H2; nia). rewrite cd by lia. cbn [bind].
    pose proof (Z.div_mod q n ltac:(lia)) as Dq. pose proof (Z.mod_pos_bound q n ltac:(lia)) as Bq.
    set (k := q / n) in *. assert (K : 1 <= k) by (apply Z.div_le_lower_bound; lia).
    assert (Rq : q mod n = q - n * k) by lia.
    assert (I1 : (l1 + k * l2) * n + l2 * (q mod n) = m) by (rewrite Rq, <- I; ring). assert (0 <= l2 * (q mod n)) by (apply Z.mul_nonneg_nonneg; lia).
    assert (0 < k * l2) by (apply Z.mul_pos_pos; lia). assert (l1 + k * l2 <= m) by (clear - I1 H Hn H1 H0; nia).
    rewrite ar by lia. cbn [bind]. rewrite ex_ok by lia. cbn [bind]. rewrite ar by lia. cbn [bind].
    rewrite ex_ok by lia. cbn [bind]. replace (q - k * n) with (q mod n) by lia.
    assert (D1' : (m | (l1 + k * l2) * c + q mod n)).
    { replace ((l1 + k * l2) * c + q mod n) with ((l1 * c + q) + k * (l2 * c - n)) by (rewrite Rq; ring). apply Z.divide_add_r; [exact D1|]. apply Z.divide_mul_r, D2. }
    assert (G' : Z.gcd n (q mod n) = Z.gcd c m) by (rewrite <- G, Z.gcd_comm, Z.gcd_mod by lia; reflexivity).
    assert (P0 : 0 < l1 + k * l2) by lia. set (l1' := l1 + k * l2) in *. set (q' := q mod n) in *. destruct (Z.eqb_spec q' 0) as [E|E].
    { exists l2. split; [reflexivity|]. split; [unfold residue; lia|]. rewrite E, Z.gcd_0_r, Z.abs_eq in G' by lia. rewrite <- G'. exact D2. }
    clearbody q' l1'. rewrite cd by lia. cbn [bind].
    pose proof (Z.div_mod n q' ltac:(lia)) as Dn. pose proof (Z.mod_pos_bound n q' ltac:(lia)) as Bn.
    set (h := n / q') in *. assert (Hh : 1 <= h) by (apply Z.div_le_lower_bound; lia).
    assert (Rn : n mod q' = n - q' * h) by lia.
    assert (I2 : l1' * (n mod q') + (l2 + h * l1') * q' = m) by (rewrite Rn, <- I1; ring). assert (P1 : 0 < l1') by lia.
    assert (N1 : 0 <= l1' * (n mod q')) by (apply Z.mul_nonneg_nonneg; lia).
    assert (N2 : 0 < h * l1') by (apply Z.mul_pos_pos; lia). assert (Q' : 0 < q') by lia. assert (N3 : l2 + h * l1' <= m) by (clear - I2 N1 N2 H2 Q'; nia).
    rewrite ar by lia. cbn [bind]. rewrite ex_ok by lia. cbn [bind]. rewrite ar by lia. cbn [bind].
    rewrite ex_ok by lia. cbn [bind]. replace (n - h * q') with (n mod q') by lia.
    assert (D2' : (m | (l2 + h * l1') * c - n mod q')).
    { replace ((l2 + h * l1') * c - n mod q') with ((l2 * c - n) + h * (l1' * c + q')) by (rewrite Rn; ring). apply Z.divide_add_r; [exact D2|]. apply Z.divide_mul_r, D1'. }
    assert (G2 : Z.gcd (n mod q') q' = Z.gcd c m) by (rewrite <- G', Z.gcd_mod by lia; apply Z.gcd_comm).
    destruct (Z.eqb_spec (n mod q') 0) as [E2|E2].
    { rewrite E2 in G2. change (Z.abs q' = Z.gcd c m) in G2. rewrite Z.abs_eq in G2 by lia.
      rewrite ex_ok by lia. exists (m - l1'). split; [reflexivity|]. split; [unfold residue; lia|]. rewrite <- G2.
      replace ((m - l1') * c - q') with (m * c - (l1' * c + q')) by ring. apply Z.divide_sub_r; [apply Z.divide_factor_l|exact D1']. }
    destruct j as [|j]; [change (2 ^ Z.of_nat 0) with 1 in Hj; lia|].
    rewrite Nat2Z.inj_succ, Z.pow_succ_r in Hj by lia.
    assert (S1 : 0 < l1' * (n mod q')) by (apply Z.mul_pos_pos; lia).
    assert (S2 : l2 + h * l1' < m) by (clear - I2 S1 N2 H2 Q'; nia).
    assert (S3 : 2 * (n mod q') < n) by (clear - Rn Bn Hh Q'; nia).
    apply (IH _ _ _ _ c j); try assumption; lia.
  Qed.
  Lemma invert_ok x r : 1 < m -> residue m x -> (64 < r)%nat ->
    exists y, invert il t m r x = Ok y /\ residue m y /\ (m | y * x - if x =? 0 then 0 else Z.gcd x m).
  Proof.
    unfold residue. intros M X R. unfold invert, invert_e. destruct (Z.eqb_spec x 0) as [-> | N].
    { exists 0. split; [reflexivity|]. split; [lia|]. exists 0. lia. }
    destruct (Z.ltb_spec 0 x); [|lia]. destruct (Z.eqb_spec x 1) as [-> | N1].
    { exists 1. split; [reflexivity|]. split; [lia|]. exists 0. rewrite Z.gcd_1_l. lia. }
    apply (invert_1_ok r 0 1 x m x 64); try lia.
    - exists 0. lia.
    - exists 1. lia.
    - pose proof tmax_wid. pose proof wid64. pose proof Mmax. pose proof (wid_ge t). assert (2 ^ wid t <= 2 ^ 64) by (apply pow_mono; lia). lia.
  Qed.
End Mod.
