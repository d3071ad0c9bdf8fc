(** Powers of two, exponents and remainders. *)
From Coq Require Import List Arith ZArith Bool Lia.
From Verif Require Import Base BitModel BitSpec BitProof FltModel FltSpec FltProof FltProof2 FltProof3.
Import ListNotations.
Open Scope Z_scope.

(** Rounding is exact on every number with few enough digits, also above the largest one. *)
Lemma round_digits f m k b : 1 <= prec f -> 0 <= lo f -> 0 <= m <= 2 ^ prec f -> lo f <= k ->
  0 < b -> round_q f (m * 2 ^ k * b) b = m * 2 ^ k.
Proof.
  intros P L Hm Hk Hb.
  pose (f' := Fmt (prec f) (lo f) (prec f + k + 1)).
  change (round_q f (m * 2 ^ k * b) b) with (round_q f' (m * 2 ^ k * b) b).
  assert (Pk := p2pos k ltac:(lia)).
  apply round_exact; auto. apply repr_intro; cbn [prec lo hi f']; auto.
  apply Z.le_lt_trans with (2 ^ prec f * 2 ^ k); [nia|].
  rewrite <- Z.pow_add_r by lia. apply Z.pow_lt_mono_r; lia.
Qed.

(** An integer combination of two representable numbers that is not larger than either. *)
Lemma repr_comb f n m v i j : 1 <= prec f -> 0 <= lo f -> repr f n -> repr f m ->
  v = i * n + j * m -> 0 <= v <= n -> v <= m -> repr f v.
Proof.
  intros P L (Hn & a & k1 & Ha & K1 & En) (Hm & b & k2 & Hb & K2 & Em) Ev H1 H2.
  assert (P1 := p2pos k1 ltac:(lia)). assert (P2 := p2pos k2 ltac:(lia)).
  destruct (Z_le_gt_dec k1 k2) as [D|D].
  - rewrite (p2split k1 k2) in Em by lia. assert (P3 := p2pos (k2 - k1) ltac:(lia)).
    assert (E : v = (i * a + j * (b * 2 ^ (k2 - k1))) * 2 ^ k1) by (rewrite Ev, En, Em; ring).
    set (w := i * a + j * (b * 2 ^ (k2 - k1))) in *. rewrite E in *.
    apply repr_intro; auto; nia.
  - rewrite (p2split k2 k1) in En by lia. assert (P3 := p2pos (k1 - k2) ltac:(lia)).
    assert (E : v = (i * (a * 2 ^ (k1 - k2)) + j * b) * 2 ^ k2) by (rewrite Ev, En, Em; ring).
    set (w := i * (a * 2 ^ (k1 - k2)) + j * b) in *. rewrite E in *.
    apply repr_intro; auto; nia.
Qed.

(** Digits: at most 2^p, or even and at most 2^(p+1). *)
Lemma repr_digits f a k : 1 <= prec f -> 0 <= lo f -> lo f <= k -> 0 <= a ->
  (a <= 2 ^ prec f \/ (exists b, a = 2 * b) /\ a <= 2 ^ (prec f + 1)) ->
  a * 2 ^ k < 2 ^ hi f -> repr f (a * 2 ^ k).
Proof.
  intros P L Hk Ha [H|((b & ->) & H)] Hh.
  - apply repr_intro; auto.
  - rewrite Z.pow_add_r in H by lia. change (2 ^ 1) with 2 in H.
    replace (2 * b * 2 ^ k) with (b * 2 ^ (k + 1)) in *
      by (rewrite Z.pow_add_r by lia; change (2 ^ 1) with 2; ring).
    apply repr_intro; auto; lia.
Qed.

Section P.
  Variable u : Z.
  Variable c : fmt.
  Hypothesis J : ieee u c.

  Notation one := (one u).

  Let U : 0 <= u := iu u c J.
  Let P : 1 <= prec c := ip u c J.
  Let L : 0 <= lo c := FltProof.il u c J.
  Let Op : 0 < one := one_pos u c J.

  Definition emax : Z := hi c - u - 1.

  Lemma em_facts : 64 <= emax /\ lo c <= u - emax /\ emax < 2 ^ 30 /\ lo c <= u
    /\ u - emax = lo c + prec c - 2.
  Proof. clear Op. unfold emax, ieee in *. lia. Qed.

  (** ** pow_n(2, e) *)

  Lemma mk_pow s k : lo c <= k ->
    mk c s (2 ^ k * one) one = if k <? hi c then Fin s (2 ^ k) else Inf s.
  Proof.
    intros Hk. unfold mk.
    replace (2 ^ k * one) with (1 * 2 ^ k * one) by ring.
    assert (Pp := p2pos (prec c) ltac:(lia)).
    rewrite round_digits by (auto; lia). rewrite Z.mul_1_l.
    destruct (Z.ltb_spec k (hi c)) as [H|H].
    - pose proof (Z.pow_lt_mono_r 2 k (hi c)).
      destruct (Z.leb_spec (2 ^ hi c) (2 ^ k)); [|reflexivity]. lia.
    - pose proof (p2le (hi c) k). unfold ieee in J.
      destruct (Z.leb_spec (2 ^ hi c) (2 ^ k)); [reflexivity|lia].
  Qed.

  Lemma fmul_pow s a b : u <= a -> u <= b ->
    fmul u c (Fin s (2 ^ a)) (Fin false (2 ^ b)) =
      if a + b - u <? hi c then Fin s (2 ^ (a + b - u)) else Inf s.
  Proof.
    intros Ha Hb. unfold fmul. rewrite xorb_false_r.
    replace (2 ^ a * 2 ^ b) with (2 ^ (a + b - u) * one)
      by (unfold FltModel.one; rewrite <- !Z.pow_add_r by lia; f_equal; lia).
    apply mk_pow. pose proof em_facts. lia.
  Qed.

  Lemma pow_impl_two p : pow_n_impl u c (f2 u) p =
    if u + Zpos p <? hi c then Fin false (2 ^ (u + Zpos p)) else Inf false.
  Proof.
    assert (F2 : f2 u = Fin false (2 ^ (u + 1))).
    { unfold f2, FltModel.one. rewrite Z.pow_add_r by lia. f_equal. change (2 ^ 1) with 2. ring. }
    pose proof em_facts as EF. unfold emax in EF.
    assert (NZ : forall k, 0 <= k -> (2 ^ k =? 0) = false)
      by (intros k Hk; pose proof (p2pos k Hk); lia).
    induction p as [p IH|p IH|].
    - cbn [pow_n_impl]. rewrite IH, F2.
      destruct (Z.ltb_spec (u + Z.pos p) (hi c)) as [H|H].
      + rewrite fmul_pow by lia.
        destruct (Z.ltb_spec (u + Z.pos p + (u + Z.pos p) - u) (hi c)) as [H2|H2].
        * rewrite fmul_pow by lia.
          replace (u + 1 + (u + Z.pos p + (u + Z.pos p) - u) - u) with (u + Z.pos p~1) by lia.
          reflexivity.
        * unfold fmul. rewrite NZ by lia. cbn [xorb].
          destruct (Z.ltb_spec (u + Z.pos p~1) (hi c)); [lia|reflexivity].
      + unfold fmul at 2. cbn [xorb]. unfold fmul. rewrite NZ by lia. cbn [xorb].
        destruct (Z.ltb_spec (u + Z.pos p~1) (hi c)); [lia|reflexivity].
    - cbn [pow_n_impl]. rewrite IH.
      destruct (Z.ltb_spec (u + Z.pos p) (hi c)) as [H|H].
      + rewrite fmul_pow by lia.
        replace (u + Z.pos p + (u + Z.pos p) - u) with (u + Z.pos p~0) by lia. reflexivity.
      + unfold fmul. cbn [xorb].
        destruct (Z.ltb_spec (u + Z.pos p~0) (hi c)); [lia|reflexivity].
    - cbn [pow_n_impl]. rewrite F2. destruct (Z.ltb_spec (u + 1) (hi c)); [reflexivity|lia].
  Qed.

  Lemma pow_two e : - emax <= e <= emax -> pow_n u c (f2 u) e = Fin false (2 ^ (u + e)).
  Proof.
    intros H. pose proof em_facts as EF. unfold emax in *.
    destruct e as [|p|p]; cbn [pow_n].
    - rewrite Z.add_0_r. reflexivity.
    - rewrite pow_impl_two. destruct (Z.ltb_spec (u + Z.pos p) (hi c)); [reflexivity|lia].
    - rewrite pow_impl_two. destruct (Z.ltb_spec (u + Z.pos p) (hi c)); [|lia].
      unfold fdiv, f1. pose proof (p2pos (u + Z.pos p) ltac:(lia)).
      destruct (Z.eqb_spec (2 ^ (u + Z.pos p)) 0); [lia|].
      replace (one * one) with (2 ^ (u + Z.neg p) * 2 ^ (u + Z.pos p))
        by (unfold FltModel.one; rewrite <- !Z.pow_add_r by lia; f_equal; lia).
      apply mk_exact; auto. apply repr_pow; auto. lia.
  Qed.

  Lemma pow_two_big e : emax < e -> pow_n u c (f2 u) e = Inf false.
  Proof.
    intros H. pose proof em_facts as EF. unfold emax in *.
    destruct e as [|p|p]; try lia. cbn [pow_n].
    rewrite pow_impl_two. destruct (Z.ltb_spec (u + Z.pos p) (hi c)); [lia|reflexivity].
  Qed.

  Lemma pow_two_small e : e < - emax -> pow_n u c (f2 u) e = Fin false 0.
  Proof.
    intros H. pose proof em_facts as EF. unfold emax in *.
    destruct e as [|p|p]; try lia. cbn [pow_n].
    rewrite pow_impl_two. destruct (Z.ltb_spec (u + Z.pos p) (hi c)); [lia|reflexivity].
  Qed.

  (** ** scalbn *)

  Lemma scalbn_exact s n e m : repr c n -> repr c m -> - emax <= e <= emax ->
    m * 2 ^ u = n * 2 ^ (u + e) -> scalbn u c c (Fin s n) e = Fin s m.
  Proof.
    intros R RM He E. pose proof em_facts as EF.
    unfold scalbn. rewrite isnan_fin, feq_zero. unfold inf, ninf. rewrite !feq_inf.
    fold one in E.
    destruct (Z.eqb_spec e 0) as [->|He0].
    { rewrite Z.add_0_r in E. fold one in E. f_equal. nia. }
    destruct (Z.eqb_spec n 0) as [->|Hn0].
    { f_equal. nia. }
    unfold fcast at 2. rewrite mk_exact1 by auto.
    rewrite pow_two by exact He. unfold fmul. rewrite xorb_false_r.
    rewrite <- E. rewrite mk_exact by auto. unfold fcast. apply mk_exact1; auto.
  Qed.

  (** ** The exponent *)

  Lemma exp_log n e : has_exp u n e -> Z.log2 n = u + e /\ 0 < n.
  Proof.
    intros (H & H0). assert (Pe := p2pos (u + e) H0). split; [|lia].
    apply Z.log2_unique; [lia|]. rewrite <- Z.add_1_r. exact H.
  Qed.

  (** A normal number is prec digits long. *)
  Lemma digits n e : repr c n -> has_exp u n e -> 1 - emax <= e ->
    exists j, n = j * 2 ^ (u + e + 1 - prec c) /\ 2 ^ (prec c - 1) <= j < 2 ^ prec c
      /\ lo c <= u + e + 1 - prec c /\ e <= emax.
  Proof.
    intros R HE He. destruct (exp_log n e HE) as (EL & Hn).
    destruct (repr_div c n P L R) as (j & E).
    pose proof em_facts as EF.
    replace (Z.max (lo c) (Z.log2 n + 1 - prec c)) with (u + e + 1 - prec c) in E by lia.
    exists j. destruct HE as ((H1 & H2) & H3).
    assert (Pk := p2pos (u + e + 1 - prec c) ltac:(lia)).
    replace (2 ^ (u + e)) with (2 ^ (prec c - 1) * 2 ^ (u + e + 1 - prec c)) in H1
      by (rewrite <- Z.pow_add_r by lia; f_equal; lia).
    replace (2 ^ (u + e + 1)) with (2 ^ prec c * 2 ^ (u + e + 1 - prec c)) in H2
      by (rewrite <- Z.pow_add_r by lia; f_equal; lia).
    split; [exact E|]. split; [nia|]. split; [lia|].
    destruct R as (Hh & _).
    assert (u + e < hi c).
    { apply p2lt_inv; [unfold ieee in J; lia|].
      apply Z.le_lt_trans with n; [|exact Hh].
      replace (2 ^ (u + e)) with (2 ^ (prec c - 1) * 2 ^ (u + e + 1 - prec c))
        by (rewrite <- Z.pow_add_r by lia; f_equal; lia). nia. }
    unfold emax. lia.
  Qed.

  (** x / 2^g where g is within one of the exponent of x *)
  Lemma div_pow n e g : repr c n -> has_exp u n e -> 1 - emax <= e ->
    e - 1 <= g <= e + 1 -> 0 <= u + g ->
    exists m, fdiv u c (Fin false n) (Fin false (2 ^ (u + g))) = Fin false m
      /\ 2 ^ (u + (e - g)) <= m < 2 ^ (u + (e - g) + 1).
  Proof.
    intros R HE He Hg Hug. pose proof em_facts as EF.
    destruct (digits n e R HE He) as (j & En & Hj & Hlo & Hem).
    set (k := u + (e - g) + 1 - prec c).
    assert (Hk : lo c <= k) by (unfold k; unfold ieee in J; lia).
    assert (Pk := p2pos k ltac:(lia)).
    exists (j * 2 ^ k). split.
    - unfold fdiv. assert (Pg := p2pos (u + g) Hug).
      destruct (Z.eqb_spec (2 ^ (u + g)) 0); [lia|]. cbn [xorb].
      replace (n * one) with (j * 2 ^ k * 2 ^ (u + g)).
      + apply mk_exact; auto. apply repr_intro; auto; [lia|].
        apply Z.lt_trans with (2 ^ prec c * 2 ^ k); [nia|].
        rewrite <- Z.pow_add_r by lia. apply Z.pow_lt_mono_r; unfold k, emax in *; lia.
      + rewrite En. unfold FltModel.one. rewrite <- !Z.mul_assoc, <- !Z.pow_add_r by lia.
        do 2 f_equal. unfold k. lia.
    - replace (2 ^ (u + (e - g))) with (2 ^ (prec c - 1) * 2 ^ k)
        by (rewrite <- Z.pow_add_r by lia; f_equal; unfold k; lia).
      replace (2 ^ (u + (e - g) + 1)) with (2 ^ prec c * 2 ^ k)
        by (rewrite <- Z.pow_add_r by lia; f_equal; unfold k; lia).
      nia.
  Qed.

  Variable lg : fl -> Z.
  Hypothesis K : lg_ok u c lg.

  Lemma logb_main k s n e : repr c n -> has_exp u n e -> 1 - emax <= e ->
    logb_impl u lg (S k) c (Fin s n) = Ok e.
  Proof.
    intros R HE He. destruct (exp_log n e HE) as (_ & Hn).
    pose proof em_facts as EF.
    destruct (digits n e R HE He) as (j & En & Hj & Hlo & Hem).
    unfold logb_impl. rewrite flt_fin_zero by exact Hn.
    replace (if s then fneg (Fin s n) else Fin s n) with (Fin false n) by (destruct s; reflexivity).
    cbv zeta.
    destruct (K n e R HE ltac:(unfold emax in He; lia)) as (G1 & G2).
    set (g := lg (Fin false n)) in *. clearbody g.
    assert (Hug : 0 <= u + g) by (unfold emax in *; lia).
    rewrite pow_two by (unfold emax; lia).
    destruct (div_pow n e g R HE He G1 Hug) as (m & Em & Bm). rewrite Em.
    unfold logb_impl_3, f1, f2, flt. cbn [sg].
    assert (D : g = e + 1 \/ g = e \/ g = e - 1) by lia.
    assert (B0 : 2 ^ (u + 1) = 2 * one).
    { rewrite Z.pow_add_r by lia. unfold FltModel.one. change (2 ^ 1) with 2. ring. }
    destruct D as [D|[D|D]].
    - (* one too large *)
      replace (u + (e - g) + 1) with u in Bm by lia. fold one in Bm.
      destruct (Z.ltb_spec m one); [|lia].
      assert (X : fdiv u c (Fin false (2 ^ (u + g))) (Fin false (2 * one))
                  = Fin false (2 ^ (u + e))).
      { unfold fdiv. destruct (Z.eqb_spec (2 * one) 0); [lia|]. cbn [xorb].
        replace (2 ^ (u + g) * one) with (2 ^ (u + e) * (2 * one)).
        - apply mk_exact; auto; [|lia]. apply repr_pow; auto.
          unfold ieee in J. unfold emax in *. lia.
        - rewrite <- B0. unfold FltModel.one. rewrite <- !Z.pow_add_r by lia. f_equal. lia. }
      rewrite X.
      destruct (div_pow n e e R HE He ltac:(lia) ltac:(lia)) as (m' & Em' & Bm').
      rewrite Em'. replace (u + (e - e)) with u in Bm' by lia. fold one in Bm'.
      cbn [logb_lo]. unfold flt, f1. cbn [sg].
      destruct (Z.ltb_spec m' one); [lia|]. f_equal. lia.
    - replace (u + (e - g)) with u in Bm by lia. fold one in Bm. rewrite B0 in Bm.
      destruct (Z.ltb_spec m one); [lia|]. destruct (Z.ltb_spec m (2 * one)); [|lia].
      cbn [negb]. f_equal. lia.
    - (* one too small *)
      replace (u + (e - g)) with (u + 1) in Bm by lia. rewrite B0 in Bm.
      destruct (Z.ltb_spec m one); [lia|]. destruct (Z.ltb_spec m (2 * one)); [lia|].
      cbn [negb].
      assert (X : fmul u c (Fin false (2 ^ (u + g))) (Fin false (2 * one))
                  = Fin false (2 ^ (u + e))).
      { unfold fmul. cbn [xorb].
        replace (2 ^ (u + g) * (2 * one)) with (2 ^ (u + e) * one).
        - apply mk_exact; auto. apply repr_pow; auto.
          unfold ieee in J. unfold emax in *. lia.
        - rewrite <- B0. unfold FltModel.one. rewrite <- !Z.pow_add_r by lia. f_equal. lia. }
      rewrite X.
      destruct (div_pow n e e R HE He ltac:(lia) ltac:(lia)) as (m' & Em' & Bm').
      rewrite Em'. replace (u + (e - e)) with u in Bm' by lia. fold one in Bm'. rewrite B0 in Bm'.
      cbn [logb_hi]. unfold flt, f2. cbn [sg].
      destruct (Z.ltb_spec m' (2 * one)); [|lia]. cbn [negb]. f_equal. lia.
  Qed.

  Lemma int_range e : - 2 ^ 30 <= e <= 2 ^ 30 ->
    (tmin int <=? e) && (e <=? tmax int) = true.
  Proof.
    intros H. change (tmin int) with (- 2 ^ 31). change (tmax int) with (2 ^ 31 - 1).
    apply andb_true_iff. rewrite !Z.leb_le. lia.
  Qed.

  Lemma ilogb_main k s n e : repr c n -> has_exp u n e -> 1 - emax <= e ->
    ilogb u lg (S k) c (Fin s n) = Ok e.
  Proof.
    intros R HE He. destruct (exp_log n e HE) as (_ & Hn).
    pose proof em_facts as EF.
    destruct (digits n e R HE He) as (j & En & Hj & Hlo & Hem).
    unfold ilogb, iszero, isinf, inf, ninf. rewrite feq_zero, isnan_fin, !feq_inf.
    destruct (Z.eqb_spec n 0); [lia|]. cbn [orb].
    unfold logb_fin, fcast. rewrite mk_exact1 by auto.
    rewrite (logb_main k s n e) by auto. cbn [bind].
    rewrite int_range by lia. reflexivity.
  Qed.

  (** Every positive magnitude not below the smallest normal number has an exponent. *)
  Lemma exp_exists n : 2 ^ (lo c + prec c - 1) <= n ->
    has_exp u n (Z.log2 n - u) /\ 1 - emax <= Z.log2 n - u.
  Proof.
    intros H. pose proof em_facts as EF.
    assert (Pm := p2pos (lo c + prec c - 1) ltac:(lia)).
    assert (B := log2_bounds n ltac:(lia)).
    assert (lo c + prec c - 1 <= Z.log2 n) by (apply Z.log2_le_pow2; lia).
    split; [|lia]. split.
    - replace (u + (Z.log2 n - u)) with (Z.log2 n) by lia. exact B.
    - lia.
  Qed.

  (** ** fmod *)

  Lemma fle_zero_sub a b : repr c (Z.abs (a - b)) ->
    fle zero (fsub c (Fin false a) (Fin false b)) = (b <=? a).
  Proof.
    intros R. rewrite (fsub_gen u c) by (auto; exact R). cbn [sg].
    unfold fle, flt, feq, zero.
    destruct (Z.eqb_spec (a - b) 0) as [E|E].
    - cbn [andb negb sg]. destruct (Z.leb_spec b a); [reflexivity|lia].
    - destruct (Z.ltb_spec (a - b) 0) as [H|H]; cbn [sg].
      + destruct (Z.ltb_spec 0 (- Z.abs (a - b))); [lia|].
        destruct (Z.eqb_spec 0 (- Z.abs (a - b))); [lia|].
        destruct (Z.leb_spec b a); [lia|reflexivity].
      + destruct (Z.ltb_spec 0 (Z.abs (a - b))); [|lia].
        destruct (Z.leb_spec b a); [reflexivity|lia].
  Qed.

  Lemma fadd_self n : repr c (2 * n) -> 0 <= n ->
    fadd c (Fin false n) (Fin false n) = Fin false (2 * n).
  Proof.
    intros R Hn. destruct (Z.eq_dec n 0) as [->|Hne]; [reflexivity|].
    rewrite (fadd_same u c J) by (try lia; replace (n + n) with (2 * n) by lia; exact R).
    f_equal. lia.
  Qed.

  Lemma fsub_ge a b : repr c (a - b) -> b <= a ->
    fsub c (Fin false a) (Fin false b) = Fin false (a - b).
  Proof.
    intros R H. rewrite (fsub_gen u c) by (auto; cbn [sg]; rewrite Z.abs_eq by lia; exact R).
    cbn [sg andb negb]. destruct (Z.eqb_spec (a - b) 0) as [->|E]; [reflexivity|].
    rewrite Z.abs_eq by lia. f_equal. lia.
  Qed.

  (** One turn of the loop, on the digits: the dividend a and the divisor j in units of
      2^(u+1-prec). *)
  Definition step (j a : Z) : Z := if j <=? a then 2 * (a - j) else 2 * a.
  Definition stepq (j a q : Z) : Z := if j <=? a then 2 * q + 2 else 2 * q.

  Definition good (j a : Z) : Prop :=
    0 <= a < 2 * j /\ (a <= 2 ^ prec c \/ exists b, a = 2 * b).

  Lemma step_good j a : good j a -> good j (step j a) /\ exists b, step j a = 2 * b.
  Proof.
    intros (H & _). unfold step. destruct (Z.leb_spec j a).
    - split; [split; [lia|right]|]; exists (a - j); reflexivity.
    - split; [split; [lia|right]|]; exists a; reflexivity.
  Qed.

  Lemma step_q j a q : stepq j a q * j + step j a = 2 * (q * j + a).
  Proof. unfold step, stepq. destruct (j <=? a); ring. Qed.

  Definition dg : Z := u + 1 - prec c.

  Lemma dg_facts : lo c <= dg /\ 0 < 2 ^ dg /\ 2 ^ prec c * 2 ^ dg = 2 * one.
  Proof.
    clear K. assert (lo c <= dg) by (unfold dg, ieee in *; lia).
    split; [assumption|]. split; [apply p2pos; lia|].
    rewrite <- Z.pow_add_r by lia. unfold FltModel.one. rewrite <- Z.pow_succ_r by lia.
    f_equal. unfold dg. lia.
  Qed.

  Lemma good_repr j a k : good j a -> j < 2 ^ prec c -> lo c <= k ->
    prec c + 1 + k <= hi c -> repr c (a * 2 ^ k).
  Proof.
    intros (H & G) Hj Hk Hh. assert (Pk := p2pos k ltac:(lia)).
    assert (P2 : 2 ^ (prec c + 1) = 2 * 2 ^ prec c) by (rewrite Z.add_1_r, Z.pow_succ_r; lia).
    apply repr_digits; auto; try lia.
    - destruct G as [G|G]; [left; exact G|right; split; [exact G|lia]].
    - apply Z.lt_le_trans with (2 ^ (prec c + 1) * 2 ^ k); [nia|].
      rewrite <- Z.pow_add_r by lia. apply p2le. lia.
  Qed.

  Lemma sub_repr j a k : 0 <= a < 2 * j -> j < 2 ^ prec c -> lo c <= k ->
    prec c + k <= hi c -> repr c (Z.abs (a * 2 ^ k - j * 2 ^ k)).
  Proof.
    intros H Hj Hk Hh. assert (Pk := p2pos k ltac:(lia)).
    rewrite <- Z.mul_sub_distr_r, Z.abs_mul, (Z.abs_eq (2 ^ k)) by lia.
    apply repr_intro; auto; [lia|].
    apply Z.lt_le_trans with (2 ^ prec c * 2 ^ k); [nia|].
    rewrite <- Z.pow_add_r by lia. apply p2le. lia.
  Qed.

  Lemma hi_dg : prec c + 2 + dg <= hi c.
  Proof. clear K. unfold dg, ieee in *. lia. Qed.

  Lemma loop_step j a : good j a -> j < 2 ^ prec c ->
    (if fle zero (fsub c (Fin false (a * 2 ^ dg)) (Fin false (j * 2 ^ dg)))
     then fadd c (fsub c (Fin false (a * 2 ^ dg)) (Fin false (j * 2 ^ dg)))
                 (fsub c (Fin false (a * 2 ^ dg)) (Fin false (j * 2 ^ dg)))
     else fadd c (Fin false (a * 2 ^ dg)) (Fin false (a * 2 ^ dg)))
    = Fin false (step j a * 2 ^ dg).
  Proof.
    intros G Hj. destruct dg_facts as (D1 & D2 & _). pose proof hi_dg as HD.
    destruct (step_good j a G) as (GS & _). assert (G' := G). destruct G' as (H & _).
    assert (SR := sub_repr j a dg H Hj D1 ltac:(lia)).
    assert (RS := good_repr j (step j a) dg GS Hj D1 ltac:(lia)).
    rewrite fle_zero_sub by exact SR. unfold step in *.
    destruct (Z.leb_spec (j * 2 ^ dg) (a * 2 ^ dg)) as [C|C];
      destruct (Z.leb_spec j a) as [C'|C']; try nia.
    - rewrite fsub_ge by (try lia; rewrite Z.abs_eq in SR by lia; exact SR).
      rewrite fadd_self.
      + f_equal. ring.
      + replace (2 * (a * 2 ^ dg - j * 2 ^ dg)) with (2 * (a - j) * 2 ^ dg) by ring. exact RS.
      + lia.
    - rewrite fadd_self.
      + f_equal. ring.
      + replace (2 * (a * 2 ^ dg)) with (2 * a * 2 ^ dg) by ring. exact RS.
      + nia.
  Qed.

  Fixpoint iter (n : nat) (j a : Z) : Z :=
    match n with O => a | S n' => iter n' j (step j a) end.
  Fixpoint iterq (n : nat) (j a q : Z) : Z :=
    match n with O => q | S n' => iterq n' j (step j a) (stepq j a q) end.

  Lemma iter_good n j a : good j a -> good j (iter n j a)
    /\ (n <> O -> exists b, iter n j a = 2 * b).
  Proof.
    revert a. induction n as [|n IH]; intros a G; cbn [iter].
    - split; [exact G|]. tauto.
    - destruct (step_good j a G) as (G' & E). destruct (IH _ G') as (H1 & H2).
      split; [exact H1|]. intros _. destruct n; [exact E|]. apply H2. discriminate.
  Qed.

  Lemma iter_q n j a q : iterq n j a q * j + iter n j a = 2 ^ Z.of_nat n * (q * j + a).
  Proof.
    revert a q. induction n as [|n IH]; intros a q.
    - cbn [iter iterq]. change (2 ^ Z.of_nat 0) with 1. ring.
    - cbn [iter iterq]. rewrite IH, step_q.
      rewrite Nat2Z.inj_succ, Z.pow_succ_r by lia. ring.
  Qed.

  Lemma fmod_loop n j a x y iscy : good j a -> j < 2 ^ prec c ->
    fmod_impl_5 u n c x y (Fin false (a * 2 ^ dg)) (Fin false (j * 2 ^ dg))
      (fsub c (Fin false (a * 2 ^ dg)) (Fin false (j * 2 ^ dg))) iscy
    = fmod_impl_6 c x y (scalbn u c c (Fin false (iter n j a * 2 ^ dg)) iscy).
  Proof.
    revert a. induction n as [|n IH]; intros a G Hj; cbn [fmod_impl_5 iter]; [reflexivity|].
    pose proof (loop_step j a G Hj) as E. cbv zeta.
    destruct (fle zero _); rewrite E; apply IH; auto; apply step_good; exact G.
  Qed.

  Lemma fmod6 s n m v : repr c m -> repr c v -> repr c (Z.abs (v - m)) -> 0 < n -> 0 < m ->
    0 <= v < 2 * m -> fmod_impl_6 c (Fin s n) (Fin false m) (Fin false v) = Fin s (v mod m).
  Proof.
    intros RM RV RD Hn Hm Hv. unfold fmod_impl_6. rewrite flt_fin_zero by exact Hn.
    replace (fle (Fin false m) (Fin false v)) with (m <=? v).
    2: { unfold fle, flt, feq. cbn [sg].
         destruct (Z.leb_spec m v), (Z.ltb_spec m v), (Z.eqb_spec m v); auto; lia. }
    destruct (Z.leb_spec m v) as [C|C].
    - rewrite fsub_ge by (try lia; rewrite Z.abs_eq in RD by lia; exact RD).
      replace (v mod m) with (v - m).
      + destruct s; reflexivity.
      + apply (Z.mod_unique v m 1); lia.
    - rewrite Z.mod_small by lia. destruct s; reflexivity.
  Qed.

  (** The digits of the two operands of a remainder, and what scaling does to them. *)
  Lemma scale_down n e j : repr c n -> n = j * 2 ^ (u + e + 1 - prec c) ->
    2 ^ (prec c - 1) <= j < 2 ^ prec c -> lo c <= u + e + 1 - prec c -> 1 - emax <= e <= emax ->
    scalbn u c c (Fin false n) (- e) = Fin false (j * 2 ^ dg).
  Proof.
    intros R En Hj Hlo He. destruct dg_facts as (D1 & D2 & _). pose proof hi_dg as HD.
    pose proof em_facts as EF.
    apply scalbn_exact; auto; [|lia|].
    - apply repr_intro; auto; [lia|].
      apply Z.lt_le_trans with (2 ^ prec c * 2 ^ dg); [nia|].
      rewrite <- Z.pow_add_r by lia. apply p2le. lia.
    - rewrite En. rewrite <- !Z.mul_assoc, <- !Z.pow_add_r by (unfold ieee in J; lia).
      do 2 f_equal. unfold dg. lia.
  Qed.

  Lemma fmod_main k s n t m : repr c n -> repr c m -> 0 < n ->
    2 ^ (lo c + prec c - 1) <= m ->
    fmod_impl u lg (S k) c (Fin s n) (Fin t m) = Ok (Fin s (n mod m)).
  Proof.
    intros RN RM Hn Hm. pose proof em_facts as EF.
    assert (Pm := p2pos (lo c + prec c - 1) ltac:(lia)).
    unfold fmod_impl. rewrite !fabs_fin by lia. cbv zeta.
    unfold flt at 1. cbn [sg].
    destruct (Z.ltb_spec n m) as [C|C].
    { rewrite Z.mod_small by lia. reflexivity. }
    destruct (exp_exists m Hm) as (HY & NY). destruct (exp_exists n ltac:(lia)) as (HX & NX).
    set (ex := Z.log2 n - u) in *. set (ey := Z.log2 m - u) in *.
    rewrite (ilogb_main k false n ex) by auto. rewrite (ilogb_main k false m ey) by auto.
    cbn [bind].
    destruct (digits n ex RN HX NX) as (jn & En & Bn & Ln & Xn).
    destruct (digits m ey RM HY NY) as (jm & Em & Bm & Lm & Xm).
    assert (Dxy : ey <= ex) by (unfold ex, ey; pose proof (Z.log2_le_mono m n); lia).
    destruct (Z.eqb_spec (ex - ey) 0) as [E0|E0].
    - (* same exponent *)
      replace ex with ey in * by lia.
      assert (Pk := p2pos (u + ey + 1 - prec c) ltac:(lia)).
      rewrite fmod6; auto; try lia.
      + assert (jn < 2 * jm).
        { replace (2 ^ prec c) with (2 * 2 ^ (prec c - 1)) in Bn
            by (rewrite <- Z.pow_succ_r by lia; f_equal; lia). lia. }
        rewrite En, Em. assert (P0 := p2pos (prec c - 1) ltac:(lia)).
        apply sub_repr; unfold emax in *; lia.
      + rewrite En, Em.
        replace (2 ^ prec c) with (2 * 2 ^ (prec c - 1)) in Bn
            by (rewrite <- Z.pow_succ_r by lia; f_equal; lia). nia.
    - destruct (Z.ltb_spec (ex - ey) 0); [lia|].
      rewrite (scale_down n ex jn), (scale_down m ey jm) by (auto; lia).
      set (N := Z.to_nat (ex - ey)).
      assert (G0 : good jm jn).
      { replace (2 ^ prec c) with (2 * 2 ^ (prec c - 1)) in Bn
            by (rewrite <- Z.pow_succ_r by lia; f_equal; lia).
        split; [lia|]. left.
        replace (2 ^ prec c) with (2 * 2 ^ (prec c - 1))
            by (rewrite <- Z.pow_succ_r by lia; f_equal; lia). lia. }
      rewrite fmod_loop by (auto; lia).
      destruct (iter_good N jm jn G0) as (GA & EA).
      pose proof (iter_q N jm jn 0) as IQ. rewrite Z.mul_0_l, Z.add_0_l in IQ.
      set (a := iter N jm jn) in *. set (q := iterq N jm jn 0) in *. clearbody a q.
      set (kk := u + ey + 1 - prec c) in *.
      assert (Pk := p2pos kk ltac:(lia)).
      assert (RA : repr c (a * 2 ^ kk)) by (apply (good_repr jm); auto; unfold kk, emax in *; lia).
      destruct dg_facts as (D1 & D2 & _). pose proof hi_dg as HD.
      rewrite (scalbn_exact false (a * 2 ^ dg) ey (a * 2 ^ kk)); auto.
      + rewrite fmod6; auto; try lia.
        * do 2 f_equal.
          replace n with (a * 2 ^ kk + q * m); [symmetry; apply Z.mod_add; lia|].
          rewrite En, Em.
          replace (2 ^ (u + ex + 1 - prec c)) with (2 ^ Z.of_nat N * 2 ^ kk).
          -- replace (jn * (2 ^ Z.of_nat N * 2 ^ kk)) with (2 ^ Z.of_nat N * jn * 2 ^ kk) by ring.
             rewrite <- IQ. ring.
          -- unfold N. rewrite Z2Nat.id by lia. rewrite <- Z.pow_add_r by lia.
             f_equal. unfold kk. lia.
        * rewrite Em. apply sub_repr; try lia; [apply GA|unfold kk, emax in *; lia].
        * rewrite Em. destruct GA as (GA & _). nia.
      + apply (good_repr jm); auto; lia.
      + lia.
      + rewrite <- !Z.mul_assoc, <- !Z.pow_add_r by (unfold kk in *; lia).
        do 2 f_equal. unfold dg, kk. lia.
  Qed.

  (** ** rem_quo *)

  Variable t : ity.
  Hypothesis TS : sgn t = true.
  Hypothesis T0 : 1 <= tmax t.

  Lemma tmin_neg : tmin t <= 0.
  Proof.
    unfold tmin. rewrite TS. pose proof (Z.pow_nonneg 2 (wid t - 1)). lia.
  Qed.

  Lemma ari_ok z : 0 <= z <= tmax t -> ari t z = Ok z.
  Proof.
    intros H. unfold ari. rewrite TS. pose proof tmin_neg.
    replace ((tmin t <=? z) && (z <=? tmax t)) with true; [reflexivity|].
    symmetry. apply andb_true_iff. lia.
  Qed.

  (** The last step: v is the remainder of the truncated division and q its quotient. *)
  Definition rq_up (v m q : Z) : bool := (m <? 2 * v) || ((2 * v =? m) && negb (q mod 2 =? 0)).

  Lemma rq7 s n m v q kk : repr c m -> repr c v -> 0 < n -> 0 <= v < m ->
    0 <= q -> q + 1 <= tmax t ->
    rem_quo_impl_7 c t (Fin s n) (Fin false m) kk q (Fin false v)
      (fadd c (Fin false v) (Fin false v)) =
    Ok (if rq_up v m q then (Fin (negb s) (m - v), (q + 1) mod 8 * kk)
        else (Fin s v, q mod 8 * kk)).
  Proof.
    intros RM RV Hn Hv Hq Ht. unfold rem_quo_impl_7. rewrite flt_fin_zero by exact Hn.
    assert (F : flt (Fin false m) (fadd c (Fin false v) (Fin false v)) = (m <? 2 * v)
             /\ feq (fadd c (Fin false v) (Fin false v)) (Fin false m) = (2 * v =? m)).
    { destruct (Z.eq_dec v 0) as [->|V0].
      { cbn. split; reflexivity. }
      destruct RV as (_ & a & k & Ha & Hk & Ev).
      assert (Pk := p2pos k ltac:(lia)).
      assert (E2 : 2 * v = a * 2 ^ (k + 1)) by (rewrite Z.pow_add_r by lia; change (2 ^ 1) with 2; lia).
      unfold fadd. cbn [sg]. replace (v + v) with (2 * v) by lia.
      destruct (Z.eqb_spec (2 * v) 0); [lia|]. rewrite Z.abs_eq by lia.
      replace (2 * v <? 0) with false by lia.
      unfold mk. rewrite E2.
      replace (round_q c (a * 2 ^ (k + 1)) 1) with (a * 2 ^ (k + 1)).
      2: { rewrite <- (Z.mul_1_r (a * 2 ^ (k + 1))) at 2. symmetry. apply round_digits; auto; lia. }
      destruct (Z.leb_spec (2 ^ hi c) (a * 2 ^ (k + 1))) as [B|B]; [|split; reflexivity].
      destruct RM as (RM & _). unfold flt, feq. cbn [negb].
      split; symmetry; [apply Z.ltb_lt|apply Z.eqb_neq]; lia. }
    destruct F as (-> & ->). fold (rq_up v m q).
    destruct (rq_up v m q) eqn:UP.
    - rewrite ari_ok by lia. cbn [bind]. do 2 f_equal.
      assert (m <= 2 * v).
      { unfold rq_up in UP. apply orb_true_iff in UP. destruct UP as [UP|UP]; [lia|].
        apply andb_true_iff in UP. lia. }
      rewrite (fsub_gen u c).
      + cbn [sg]. destruct (Z.eqb_spec (v - m) 0); [lia|].
        replace (v - m <? 0) with true by lia.
        replace (Z.abs (v - m)) with (m - v) by lia. destruct s; reflexivity.
      + exact J.
      + cbn [sg]. replace (Z.abs (v - m)) with (m - v) by lia.
        apply (repr_comb c v m (m - v) (-1) 1); auto; lia.
    - destruct s; reflexivity.
  Qed.

  (** The result in terms of the magnitudes. *)
  Definition rq_res (s : bool) (n m kk : Z) : fl * Z :=
    let v := n mod m in
    let q := n / m in
    if rq_up v m q then (Fin (negb s) (m - v), (q + 1) mod 8 * kk) else (Fin s v, q mod 8 * kk).

  Lemma rq6 s n m v q kk : repr c m -> repr c v -> repr c (Z.abs (v - m)) -> 0 < n -> 0 < m ->
    0 <= v < 2 * m -> 0 <= q -> n = q * m + v -> n / m + 1 <= tmax t ->
    rem_quo_impl_6 c t (Fin s n) (Fin false m) kk q (Fin false v) = Ok (rq_res s n m kk).
  Proof.
    intros RM RV RD Hn Hm Hv Hq E Ht. unfold rem_quo_impl_6.
    replace (fle (Fin false m) (Fin false v)) with (m <=? v).
    2: { unfold fle, flt, feq. cbn [sg].
         destruct (Z.leb_spec m v), (Z.ltb_spec m v), (Z.eqb_spec m v); auto; lia. }
    unfold rq_res.
    destruct (Z.leb_spec m v) as [C|C].
    - assert (E1 : n / m = q + 1) by (symmetry; apply (Z.div_unique n m (q + 1) (v - m)); lia).
      assert (E2 : n mod m = v - m) by (symmetry; apply (Z.mod_unique n m (q + 1)); lia).
      rewrite E1 in *. rewrite E2. rewrite ari_ok by lia. cbn [bind]. cbv zeta.
      rewrite fsub_ge by (try lia; rewrite Z.abs_eq in RD by lia; exact RD).
      apply rq7; auto; try lia. rewrite Z.abs_eq in RD by lia. exact RD.
    - assert (E1 : n / m = q) by (symmetry; apply (Z.div_unique n m q v); lia).
      assert (E2 : n mod m = v) by (symmetry; apply (Z.mod_unique n m q); lia).
      rewrite E1 in *. rewrite E2. apply rq7; auto; lia.
  Qed.

  Lemma rq_loop n j a q x y kk iscy : good j a -> 0 < j < 2 ^ prec c -> 0 <= q ->
    2 ^ Z.of_nat n * (q * j + a) < (tmax t + 1) * j ->
    rem_quo_impl_5 u n c t x y kk q (Fin false (a * 2 ^ dg)) (Fin false (j * 2 ^ dg))
      (fsub c (Fin false (a * 2 ^ dg)) (Fin false (j * 2 ^ dg))) iscy
    = rem_quo_impl_6 c t x y kk (iterq n j a q) (scalbn u c c (Fin false (iter n j a * 2 ^ dg)) iscy).
  Proof.
    revert a q. induction n as [|n IH]; intros a q G Hj Hq HB; cbn [rem_quo_impl_5 iter iterq];
      [reflexivity|].
    pose proof (loop_step j a G (proj2 Hj)) as E. cbv zeta.
    pose proof (step_q j a q) as SQ. destruct (step_good j a G) as (GS & _).
    rewrite Nat2Z.inj_succ, Z.pow_succ_r in HB by lia.
    assert (HB' : 2 ^ Z.of_nat n * (stepq j a q * j + step j a) < (tmax t + 1) * j)
      by (rewrite SQ; lia).
    assert (Pn := p2pos (Z.of_nat n) ltac:(lia)).
    assert (0 <= step j a) by (destruct GS; lia).
    assert (SP : 0 <= stepq j a q) by (unfold stepq; destruct (j <=? a); lia).
    assert (ST : stepq j a q <= tmax t).
    { assert (stepq j a q * j <= 2 ^ Z.of_nat n * (stepq j a q * j + step j a)) by nia. nia. }
    destruct dg_facts as (D1 & D2 & _). pose proof hi_dg as HD.
    assert (G' := G). destruct G' as (Ga & _).
    assert (SR := sub_repr j a dg Ga (proj2 Hj) D1 ltac:(lia)).
    rewrite fle_zero_sub in E |- * by exact SR.
    unfold stepq, step in *.
    destruct (Z.leb_spec (j * 2 ^ dg) (a * 2 ^ dg)) as [C|C];
      destruct (Z.leb_spec j a) as [C'|C']; try nia.
    - rewrite ari_ok by lia. cbn [bind]. replace (q + q + 2) with (2 * q + 2) by lia.
      rewrite ari_ok by lia. cbn [bind]. rewrite E. apply IH; auto.
    - replace (q + q) with (2 * q) by lia. rewrite ari_ok by lia. cbn [bind].
      rewrite E. apply IH; auto.
  Qed.

  Lemma rem_quo_main k s n t' m : repr c n -> repr c m ->
    2 ^ (lo c + prec c - 1) <= n -> 2 ^ (lo c + prec c - 1) <= m ->
    n / m + 1 <= tmax t ->
    rem_quo_impl u lg (S k) c t (Fin s n) (Fin t' m) =
      Ok (rq_res s n m (if xorb s t' then -1 else 1)).
  Proof.
    intros RN RM Hn Hm Ht. pose proof em_facts as EF.
    assert (Pm := p2pos (lo c + prec c - 1) ltac:(lia)).
    unfold rem_quo_impl. rewrite !fabs_fin by lia. cbv zeta.
    unfold signbit, broken_signbit. rewrite !isnan_fin, !flt_fin_zero by lia. cbn [negb andb].
    set (kk := if xorb s t' then -1 else 1). clearbody kk.
    destruct (exp_exists m Hm) as (HY & NY). destruct (exp_exists n Hn) as (HX & NX).
    set (ex := Z.log2 n - u) in *. set (ey := Z.log2 m - u) in *.
    rewrite (ilogb_main k false n ex) by auto. rewrite (ilogb_main k false m ey) by auto.
    cbn [bind].
    destruct (digits n ex RN HX NX) as (jn & En & Bn & Ln & Xn).
    destruct (digits m ey RM HY NY) as (jm & Em & Bm & Lm & Xm).
    destruct (Z.ltb_spec (ex - ey) 0) as [E0|E0].
    { (* n < m *)
      assert (n < m).
      { apply Z.log2_lt_cancel. unfold ex, ey in E0. lia. }
      unfold rq_res. rewrite Z.mod_small, Z.div_small by lia.
      apply rq7; auto; lia. }
    assert (P2 : 2 ^ prec c = 2 * 2 ^ (prec c - 1))
      by (rewrite <- Z.pow_succ_r by lia; f_equal; lia).
    destruct (Z.eqb_spec (ex - ey) 0) as [E1|E1].
    - replace ex with ey in * by lia.
      assert (Pk := p2pos (u + ey + 1 - prec c) ltac:(lia)).
      apply rq6; auto; try lia.
      + rewrite En, Em. assert (P0 := p2pos (prec c - 1) ltac:(lia)).
        apply sub_repr; unfold emax in *; lia.
      + rewrite En, Em. nia.
    - rewrite (scale_down n ex jn), (scale_down m ey jm) by (auto; lia).
      set (N := Z.to_nat (ex - ey)).
      assert (G0 : good jm jn) by (split; [lia|]; left; lia).
      set (kx := u + ey + 1 - prec c) in *.
      assert (Pk := p2pos kx ltac:(lia)).
      assert (EN : n = 2 ^ Z.of_nat N * jn * 2 ^ kx).
      { rewrite En. replace (2 ^ (u + ex + 1 - prec c)) with (2 ^ Z.of_nat N * 2 ^ kx); [ring|].
        unfold N. rewrite Z2Nat.id by lia. rewrite <- Z.pow_add_r by lia.
        f_equal. unfold kx. lia. }
      assert (BND : 2 ^ Z.of_nat N * (0 * jm + jn) < (tmax t + 1) * jm).
      { assert (n < (n / m + 1) * m).
        { pose proof (Z.mul_succ_div_gt n m ltac:(lia)). lia. }
        assert (n < (tmax t + 1) * m) by nia.
        rewrite EN, Em in H0. nia. }
      rewrite rq_loop by (auto; lia).
      destruct (iter_good N jm jn G0) as (GA & EA).
      pose proof (iter_q N jm jn 0) as IQ. rewrite Z.mul_0_l, Z.add_0_l in IQ.
      assert (Q0 : 0 <= iterq N jm jn 0).
      { clear - G0. assert (H : 0 <= 0) by lia. revert H. generalize 0 at 2 4. generalize jn.
        induction N as [|N IH]; intros a q Hq; cbn [iterq]; [exact Hq|].
        apply IH. unfold stepq. destruct (jm <=? a); lia. }
      set (a := iter N jm jn) in *. set (q := iterq N jm jn 0) in *. clearbody a q.
      assert (RA : repr c (a * 2 ^ kx)) by (apply (good_repr jm); auto; unfold kx, emax in *; lia).
      destruct dg_facts as (D1 & D2 & _). pose proof hi_dg as HD.
      rewrite (scalbn_exact false (a * 2 ^ dg) ey (a * 2 ^ kx)); auto.
      + apply rq6; auto; try lia.
        * rewrite Em. apply sub_repr; try lia; [apply GA|unfold kx, emax in *; lia].
        * rewrite Em. destruct GA as (GA & _). nia.
      + apply (good_repr jm); auto; lia.
      + lia.
      + rewrite <- !Z.mul_assoc, <- !Z.pow_add_r by (unfold kx in *; lia).
        do 2 f_equal. unfold dg, kx. lia.
  Qed.

End P.
