(** The functions as called, for an argument type and the type computed in; counterexamples. *)
From Coq Require Import List Arith ZArith Bool Lia.
From Verif Require Import Base BitModel BitSpec BitProof FltModel FltSpec
  FltProof FltProof2 FltProof3 FltProof4.
Import ListNotations.
Open Scope Z_scope.

Lemma lg_exact_ok u c : ieee u c -> lg_ok u c (lg_exact u).
Proof.
  intros J n e R HE He. cbn [lg_exact].
  destruct (exp_log u n e HE) as (EL & Hn).
  destruct (digits u c J n e R HE ltac:(unfold emax; lia)) as (j & _ & _ & _ & Hm).
  unfold emax in Hm. pose proof (em_facts u c J). lia.
Qed.

Lemma b64_ieee : ieee 1074 b64. Proof. unfold ieee, b64; cbn [prec lo hi]; lia. Qed.
Lemma b32_ieee : ieee 1074 b32. Proof. unfold ieee, b32; cbn [prec lo hi]; lia. Qed.
Lemma b80_ieee : ieee 16445 b80. Proof. unfold ieee, b80; cbn [prec lo hi]; lia. Qed.
Lemma b32_b64 : sub_fmt b32 b64. Proof. unfold sub_fmt, b32, b64; cbn [prec lo hi]; lia. Qed.
Lemma b64_repr j k : 0 <= j < 2 ^ 53 -> 0 <= k <= 2044 -> repr b64 (j * 2 ^ k).
Proof.
  intros Hj Hk. split; [|exists j, k; cbn [prec lo b64]; repeat split; lia].
  cbn [hi b64]. apply Z.lt_le_trans with (2 ^ 53 * 2 ^ k).
  - apply Z.mul_lt_mono_pos_r; [apply p2pos|]; lia.
  - rewrite <- Z.pow_add_r by lia. apply p2le. lia.
Qed.
Lemma b32_repr j k : 0 <= j < 2 ^ 24 -> 925 <= k <= 1178 -> repr b32 (j * 2 ^ k).
Proof.
  intros Hj Hk. split; [|exists j, k; cbn [prec lo b32]; repeat split; lia].
  cbn [hi b32]. apply Z.lt_le_trans with (2 ^ 24 * 2 ^ k).
  - apply Z.mul_lt_mono_pos_r; [apply p2pos|]; lia.
  - rewrite <- Z.pow_add_r by lia. apply p2le. lia.
Qed.
Lemma fmt_refl f : sub_fmt f f. Proof. unfold sub_fmt; lia. Qed.

Lemma mk_rounded f s a b : 1 <= prec f -> 0 <= lo f -> 0 <= a -> 0 < b ->
  rounded f s a b (mk f s a b).
Proof.
  intros P L Ha Hb. unfold mk.
  pose proof (round_nearest f a b P L Ha Hb) as N.
  destruct (Z.leb_spec (2 ^ hi f) (round_q f a b)) as [B|B].
  - split; [reflexivity|]. intros m R. destruct (Z_lt_ge_dec (b * m) a) as [D|D]; [exact D|].
    exfalso. specialize (N m R). destruct R as (R & _). nia.
  - split; [reflexivity|]. split; [apply round_repr; auto|exact N].
Qed.

Lemma fdim_user f s n t m : 1 <= prec f -> 0 <= lo f -> 0 <= n -> 0 <= m ->
  (sg s n <= sg t m -> fdim f (Fin s n) (Fin t m) = Fin false 0)
  /\ (sg t m < sg s n -> rounded f false (sg s n - sg t m) 1 (fdim f (Fin s n) (Fin t m))).
Proof.
  intros P L Hn Hm. rewrite fdim_main by assumption.
  destruct (Z.ltb_spec (sg t m) (sg s n)) as [D|D]; split; intros H; try lia; auto.
  apply mk_rounded; auto; lia.
Qed.

Lemma fma_user u f s n t m w k p : 1 <= prec f -> 0 <= lo f -> 0 < one u -> repr f p ->
  p * one u = n * m -> sg (xorb s t) p + sg w k <> 0 ->
  rounded f (sg (xorb s t) p + sg w k <? 0) (Z.abs (sg (xorb s t) p + sg w k)) 1
    (fma u f (Fin s n) (Fin t m) (Fin w k)).
Proof.
  intros P L Op R E Z0. unfold fma, isinf. rewrite !isnan_fin. unfold inf, ninf.
  rewrite !feq_inf. cbn [orb andb]. unfold fmul. rewrite <- E, mk_exact by auto.
  cbn [fadd]. destruct (Z.eqb_spec (sg (xorb s t) p + sg w k) 0); [contradiction|].
  apply mk_rounded; auto; lia.
Qed.

Lemma special_id u ne f c x : (match x with Fin _ n => n = 0 | _ => True end) ->
  floor u ne f c x = Ok (Some x) /\ ceil u ne f c x = Ok (Some x)
  /\ round u ne f c x = Ok (Some x) /\ trunc u ne f x = Ok (Some x).
Proof.
  intros H. destruct x as [s|s|s n]; [| |subst n]; destruct s; auto 6.
Qed.

Lemma repr_scaled u f : ieee u f -> forall m, repr f m -> one u <= m ->
  repr f (m / 2 ^ (prec f - 1)) /\ repr f (2 * (m / 2 ^ (prec f - 1))).
Proof.
  intros I m R Hm. destruct (eps_mul u f I m R Hm) as (_ & EM).
  set (Q := m / 2 ^ (prec f - 1)) in *.
  assert (P := ip u f I). assert (L := FltProof.il u f I). assert (Op := one_pos u f I).
  assert (U := iu u f I).
  pose proof (repr_range f m R L) as Rg.
  assert (Pp := p2pos (prec f - 1) ltac:(lia)).
  assert (Q0 : 0 < Q) by nia.
  destruct (repr_div f m P L R) as (j & E).
  set (k := Z.max (lo f) (Z.log2 m + 1 - prec f)) in E.
  assert (Hlog : u <= Z.log2 m).
  { rewrite <- (Z.log2_pow2 u) by lia. apply Z.log2_le_mono. exact Hm. }
  assert (Hk : k = Z.log2 m + 1 - prec f) by (unfold k; unfold ieee in I; lia).
  assert (Hk1 : lo f + prec f - 1 <= k) by (unfold ieee in I; lia).
  assert (Pk := p2pos (k - (prec f - 1)) ltac:(lia)).
  assert (Ek : 2 ^ k = 2 ^ (k - (prec f - 1)) * 2 ^ (prec f - 1))
    by (rewrite <- Z.pow_add_r by lia; f_equal; lia).
  assert (EQ : Q = j * 2 ^ (k - (prec f - 1))).
  { apply (Z.mul_reg_r _ _ (2 ^ (prec f - 1))); [lia|]. rewrite EM, E, Ek. ring. }
  assert (J0 : 0 <= j < 2 ^ prec f).
  { pose proof (Z.log2_spec m ltac:(lia)) as (L1 & L2).
    assert (P2k := p2pos k ltac:(lia)).
    replace (Z.succ (Z.log2 m)) with (prec f + k) in L2 by lia.
    rewrite Z.pow_add_r in L2 by lia. nia. }
  assert (P2 : 2 <= prec f) by (destruct I; lia).
  assert (H2 : 2 * Q <= m).
  { rewrite <- EM. assert (2 ^ 1 <= 2 ^ (prec f - 1)) by (apply p2le; lia).
    change (2 ^ 1) with 2 in *. nia. }
  split.
  - split; [lia|]. exists j, (k - (prec f - 1)). repeat split; lia.
  - split; [lia|]. exists j, (k - (prec f - 1) + 1). repeat split; try lia.
    rewrite Z.pow_add_r by lia. change (2 ^ 1) with 2. lia.
Qed.

Lemma equal_near u f s n t m : ieee u f -> repr f n -> repr f m ->
  let d := Z.abs (sg s n - sg t m) * 2 ^ (prec f - 1) in
  let g := Z.max (Z.max n m) (2 ^ u) in
  (d <= g -> equal_to u f (Fin s n) (Fin t m) = true)
  /\ (equal_to u f (Fin s n) (Fin t m) = true -> d <= 2 * g).
Proof.
  intros I RN RM. cbv zeta. fold (one u).
  assert (P := ip u f I). assert (L := FltProof.il u f I). assert (Op := one_pos u f I).
  pose proof (repr_range f n RN L) as Hn. pose proof (repr_range f m RM L) as Hm.
  unfold equal_to. cbn [feq].
  assert (Pp := p2pos (prec f - 1) ltac:(lia)).
  destruct (Z.eqb_spec (sg s n) (sg t m)) as [E|E]; cbn [orb].
  { split; [reflexivity|]. intros _. rewrite E, Z.sub_diag. cbn [Z.abs]. lia. }
  rewrite !fabs_fin by lia. unfold max3, f1. rewrite !max2_fin.
  set (g := Z.max (Z.max n m) (one u)).
  assert (RG : repr f g).
  { unfold g. assert (RO := repr_one u f I).
    destruct (Z.max_spec (Z.max n m) (one u)) as [(_ & ->)|(_ & ->)]; [exact RO|].
    destruct (Z.max_spec n m) as [(_ & ->)|(_ & ->)]; assumption. }
  destruct (eps_mul u f I g RG ltac:(unfold g; lia)) as (-> & EM).
  set (Q := g / 2 ^ (prec f - 1)) in *.
  assert (G0 : one u <= g) by (unfold g; lia). clearbody g.
  unfold fsub, fneg, fadd.
  replace (sg s n + sg (negb t) m) with (sg s n - sg t m) by (destruct s, t; cbn [sg negb]; lia).
  destruct (Z.eqb_spec (sg s n - sg t m) 0); [lia|].
  set (D := Z.abs (sg s n - sg t m)). assert (D0 : 0 < D) by (unfold D; lia).
  set (b := sg s n - sg t m <? 0). clearbody D b.
  assert (RQ : repr f Q /\ repr f (2 * Q)).
  { destruct (eps_mul u f I g RG G0) as (EQ & _). fold Q in EQ.
    assert (Q1 : 0 < Q) by nia.
    destruct (repr_scaled u f I g RG G0) as (A & B). fold Q in A, B. auto. }
  destruct RQ as (RQ & R2Q).
  pose proof (mk_rounded f b D 1 P L ltac:(lia) ltac:(lia)) as MR.
  destruct (mk f b D 1) as [b'|b'|b' r]; [contradiction| |].
  - destruct MR as (_ & MR). specialize (MR _ R2Q).
    assert (Ef : fle (fabs (Inf b')) (Fin false Q) = false) by (destruct b'; reflexivity).
    rewrite Ef. split; [|discriminate]. intros H. exfalso. nia.
  - destruct MR as (_ & RR & NR). pose proof (repr_range f r RR L) as Hr.
    rewrite fabs_fin by lia. unfold fle. cbn [flt feq sg].
    pose proof (NR Q RQ) as N1. pose proof (NR (2 * Q) R2Q) as N2.
    split.
    + intros H. assert (D <= Q) by nia. assert (r <= Q) by lia.
      destruct (Z.ltb_spec r Q); [reflexivity|]. cbn [orb]. apply Z.eqb_eq. lia.
    + intros H. assert (r <= Q).
      { apply orb_true_iff in H. destruct H as [H|H]; lia. }
      assert (D <= 2 * Q) by lia. nia.
Qed.

Section F.
  Variable u : Z.
  Variable f c : fmt.
  Hypothesis I : ieee u f.
  Hypothesis J : ieee u c.
  Hypothesis SB : sub_fmt f c.

  Let P : 1 <= prec f := ip u f I.
  Let L : 0 <= lo f := FltProof.il u f I.
  Let Op : 0 < one u := one_pos u f I.

  Lemma up' n : repr f n -> repr c n.
  Proof. apply (up u f c I SB). Qed.

  (** ** ldexp *)

  Lemma ldexp_main s n e m : repr f n -> repr f m ->
    - (hi c - u - 1) <= e <= hi c - u - 1 -> m * 2 ^ u = n * 2 ^ (u + e) ->
    ldexp u f c (Fin s n) e = Fin s m.
  Proof.
    intros R RM He E. unfold ldexp, scalbn.
    rewrite isnan_fin, feq_zero. unfold inf, ninf. rewrite !feq_inf.
    fold (one u) in E.
    destruct (Z.eqb_spec e 0) as [->|He0].
    { rewrite Z.add_0_r in E. fold (one u) in E. f_equal. nia. }
    destruct (Z.eqb_spec n 0) as [->|Hn0].
    { f_equal. nia. }
    rewrite (cast_up u f c I J SB) by exact R.
    rewrite (pow_two u c J) by (unfold emax; lia).
    unfold fmul. rewrite xorb_false_r, <- E.
    rewrite mk_exact; auto; [|eapply ip, J|eapply FltProof.il, J|apply up', RM].
    apply (cast_down u f I). exact RM.
  Qed.

  Lemma ldexp_round s n e : repr c n -> e <> 0 -> 0 < n ->
    - (hi c - u - 1) <= e <= hi c - u - 1 ->
    rounded c s (n * 2 ^ (u + e)) (2 ^ u) (ldexp u c c (Fin s n) e).
  Proof.
    intros R He0 Hn He. unfold ldexp, scalbn.
    rewrite isnan_fin, feq_zero. unfold inf, ninf. rewrite !feq_inf.
    destruct (Z.eqb_spec e 0); [lia|]. destruct (Z.eqb_spec n 0); [lia|].
    rewrite (cast_up u c c J J (fmt_refl c)) by exact R.
    rewrite (pow_two u c J) by (unfold emax; lia).
    unfold fmul. rewrite xorb_false_r.
    pose proof (em_facts u c J) as EF. unfold emax in EF.
    assert (Pc := ip u c J). assert (Lc := FltProof.il u c J).
    assert (Pe := p2pos (u + e) ltac:(lia)).
    set (a := n * 2 ^ (u + e)). assert (0 <= a) by (unfold a; nia).
    pose proof (mk_rounded c s a (one u) Pc Lc ltac:(lia) Op) as M.
    destruct (mk c s a (one u)) as [b|b|b m]; [contradiction|exact M|].
    cbn [fcast]. rewrite mk_exact1; [exact M|auto|auto|apply M].
  Qed.

  Variable lg : fl -> Z.
  Hypothesis K : lg_ok u c lg.

  (** ** Exponent and significand *)

  Lemma ilogb_user k s n : repr f n -> 2 ^ (lo c + prec c - 1) <= n ->
    exists e, ilogb u lg (S k) c (Fin s n) = Ok e /\ has_exp u n e.
  Proof.
    intros R Hn. destruct (exp_exists u c J n Hn) as (HE & He).
    exists (Z.log2 n - u). split; [|exact HE].
    apply (ilogb_main u c J lg K); auto. apply up', R.
  Qed.

  Lemma frexp_main k s n : repr f n -> 2 ^ (lo f + prec f - 1) <= n < 2 ^ (hi f - 1) ->
    exists m e, float2_sig_exp u lg (S k) f c (Fin s n) = Ok (Fin s m, e)
      /\ 2 ^ (u - 1) <= m < 2 ^ u /\ m * 2 ^ (u + e) = n * 2 ^ u /\ 0 <= u + e.
  Proof.
    intros R Hn.
    pose proof (em_facts u f I) as EF. pose proof (em_facts u c J) as EC.
    unfold emax in EF, EC.
    destruct (exp_exists u f I n (proj1 Hn)) as (HE & He). unfold emax in He.
    set (e0 := Z.log2 n - u) in *.
    destruct (exp_log u n e0 HE) as (_ & Hpos).
    assert (HL : Z.log2 n < hi f - 1) by (apply Z.log2_lt_pow2; lia).
    assert (SB' := SB). destruct SB' as (S1 & S2 & S3).
    assert (IL : ilogb u lg (S k) c (Fin s n) = Ok e0).
    { apply (ilogb_main u c J lg K); auto; [apply up', R|].
      unfold emax. lia. }
    unfold float2_sig_exp. rewrite isnan_fin, feq_zero. unfold inf, ninf. rewrite !feq_inf.
    destruct (Z.eqb_spec n 0); [lia|]. rewrite IL. cbn [bind].
    rewrite (pow_two u f I) by (unfold emax; lia).
    destruct (digits u f I n e0 R HE ltac:(unfold emax; lia)) as (j & En & Hj & Hlo & _).
    exists (j * 2 ^ (u - prec f)), (e0 + 1).
    assert (Hup : lo f <= u - prec f) by (unfold ieee in I; lia).
    assert (Pk := p2pos (u - prec f) ltac:(lia)).
    assert (B1 : 2 ^ (u - 1) = 2 ^ (prec f - 1) * 2 ^ (u - prec f))
      by (rewrite <- Z.pow_add_r by lia; f_equal; lia).
    assert (B2 : 2 ^ u = 2 ^ prec f * 2 ^ (u - prec f))
      by (rewrite <- Z.pow_add_r by lia; f_equal; lia).
    assert (EQ : j * 2 ^ (u - prec f) * 2 ^ (u + (e0 + 1)) = n * 2 ^ u).
    { rewrite En. rewrite <- !Z.mul_assoc, <- !Z.pow_add_r by lia. do 2 f_equal. lia. }
    split; [|split; [split|split]].
    - do 2 f_equal. unfold fdiv. assert (Pe := p2pos (u + (e0 + 1)) ltac:(lia)).
      destruct (Z.eqb_spec (2 ^ (u + (e0 + 1))) 0); [lia|].
      unfold one. rewrite <- EQ, xorb_false_r. apply mk_exact; auto.
      apply repr_intro; auto; [lia|].
      apply Z.lt_trans with (2 ^ u); [rewrite B2; nia|]. apply Z.pow_lt_mono_r; lia.
    - rewrite B1. nia.
    - rewrite B2. nia.
    - exact EQ.
    - lia.
  Qed.

  (** ** fmod *)

  Lemma fmod_user k s n t m : repr f n -> repr f m -> 2 ^ (lo c + prec c - 1) <= m ->
    fmod u lg (S k) f c (Fin s n) (Fin t m) = Ok (Fin s (n mod m)).
  Proof.
    intros R RM Hm. pose proof (repr_range f n R L) as Rg.
    pose proof (em_facts u c J) as EF. unfold emax in EF.
    assert (Lc := FltProof.il u c J). assert (Pc := ip u c J).
    assert (Pm := p2pos (lo c + prec c - 1) ltac:(lia)).
    unfold fmod. rewrite !isnan_fin, !feq_zero. unfold inf, ninf. rewrite !feq_inf. cbn [orb].
    destruct (Z.eqb_spec m 0); [lia|].
    destruct (Z.eqb_spec n 0) as [->|Hn].
    { rewrite Z.mod_0_l by lia. reflexivity. }
    rewrite !(cast_up u f c I J SB) by assumption.
    rewrite (fmod_main u c J lg K) by (auto using up'; lia). cbn [bind].
    rewrite (cast_down u f I); [reflexivity|].
    destruct (Z_lt_ge_dec n m) as [D|D].
    - rewrite Z.mod_small by lia. exact R.
    - pose proof (Z.mod_pos_bound n m ltac:(lia)).
      apply (repr_comb f n m (n mod m) 1 (- (n / m))); auto; try lia.
      rewrite (Z.mod_eq n m) by lia. ring.
  Qed.

  Lemma two_normal : repr f (2 * one u) /\ 2 ^ (lo c + prec c - 1) <= 2 * one u.
  Proof.
    pose proof (em_facts u c J) as EF. unfold emax in EF.
    assert (E : 2 * one u = 2 ^ (u + 1)).
    { unfold one. rewrite Z.pow_add_r by (unfold ieee in I; lia). change (2 ^ 1) with 2. ring. }
    rewrite E. split.
    - apply repr_pow; auto. unfold ieee in I. lia.
    - apply p2le. unfold ieee in J. lia.
  Qed.

  Lemma odd_even k s n : repr f n ->
    is_odd u lg (S k) f c (Fin s n) = Ok (n mod (2 * one u) =? one u)
    /\ is_even u lg (S k) f c (Fin s n) = Ok (n mod (2 * one u) =? 0).
  Proof.
    intros R. destruct two_normal as (R2 & H2).
    pose proof (repr_range f n R L) as Rg.
    pose proof (Z.mod_pos_bound n (2 * one u) ltac:(lia)) as B.
    unfold is_odd, is_even, isfinite, isinf. rewrite isnan_fin.
    unfold inf, ninf. rewrite !feq_inf. cbn [orb negb].
    unfold f2. split.
    - rewrite flt_zero by lia.
      assert (E : exists b, (if s && negb (n =? 0) then fneg (Fin s n) else Fin s n) = Fin b n
                  /\ (b = true -> n = 0)).
      { destruct s; cbn [andb].
        - destruct (Z.eqb_spec n 0); cbn [negb]; [exists true|exists false]; split; auto;
            discriminate.
        - exists false. split; [reflexivity|discriminate]. }
      destruct E as (b & -> & Hb). rewrite fmod_user by auto. cbn [bind]. f_equal.
      unfold feq, f1. destruct b; cbn [sg].
      + rewrite Hb by reflexivity. rewrite Z.mod_0_l by lia. reflexivity.
      + reflexivity.
    - rewrite fmod_user by auto. cbn [bind]. f_equal. apply feq_zero.
  Qed.

  (** ** remainder *)

  Variable t : ity.
  Hypothesis TS : sgn t = true.

  Lemma rq_repr s n m kk r q : repr f n -> repr f m -> 0 < n -> 0 < m ->
    rq_res s n m kk = (r, q) -> fcast f r = r.
  Proof.
    intros RN RM Hn Hm E.
    pose proof (Z.mod_pos_bound n m Hm) as B.
    pose proof (Z.div_mod n m ltac:(lia)) as DM.
    assert (Q0 : 0 <= n / m) by (apply Z.div_pos; lia).
    unfold rq_res in E. cbv zeta in E. destruct (rq_up _ _ _) eqn:UP; injection E as <- <-.
    - assert (m <= 2 * (n mod m)).
      { unfold rq_up in UP. apply orb_true_iff in UP. destruct UP as [UP|UP]; [lia|].
        apply andb_true_iff in UP. lia. }
      apply (cast_down u f I).
      apply (repr_comb f n m (m - n mod m) (-1) (n / m + 1)); auto; try lia; nia.
    - apply (cast_down u f I).
      destruct (Z_lt_ge_dec n m) as [D|D].
      + rewrite Z.mod_small by lia. exact RN.
      + apply (repr_comb f n m (n mod m) 1 (- (n / m))); auto; try lia.
  Qed.

  Lemma rq_spec s n t' m : 0 <= n -> 0 < m ->
    match rq_res s n m (if xorb s t' then -1 else 1) with
    | (Fin b r, q) => exists Q, ieee_rem (sg s n) (sg t' m) (sg b r) Q /\ q = Z.rem Q 8
    | _ => False
    end.
  Proof.
    intros Hn Hm.
    pose proof (Z.mod_pos_bound n m Hm) as B.
    pose proof (Z.div_mod n m ltac:(lia)) as DM.
    assert (Q0 : 0 <= n / m) by (apply Z.div_pos; lia).
    unfold rq_res. cbv zeta. set (v := n mod m) in *. set (q := n / m) in *. clearbody v q.
    assert (R8 : forall z, 0 <= z -> z mod 8 * (if xorb s t' then -1 else 1)
                 = Z.rem ((if xorb s t' then -1 else 1) * z) 8).
    { intros z Hz. destruct (xorb s t').
      - replace (-1 * z) with (- z) by lia. rewrite Z.rem_opp_l, Z.rem_mod_nonneg by lia. lia.
      - rewrite Z.mul_1_l, Z.rem_mod_nonneg by lia. lia. }
    assert (EV : forall z, Z.even ((if xorb s t' then -1 else 1) * z) = Z.even z).
    { intros z. destruct (xorb s t').
      - replace (-1 * z) with (- z) by lia. apply Z.even_opp.
      - rewrite Z.mul_1_l. reflexivity. }
    unfold rq_up. destruct (Z.ltb_spec m (2 * v)) as [C|C]; cbn [orb].
    - exists ((if xorb s t' then -1 else 1) * (q + 1)). split; [|apply R8; lia].
      split; [|split].
      + destruct s, t'; cbn [sg xorb negb]; lia.
      + destruct s, t'; cbn [sg negb]; lia.
      + destruct s, t'; cbn [sg negb]; lia.
    - destruct (Z.eqb_spec (2 * v) m) as [C2|C2]; cbn [andb].
      + destruct (Z.eqb_spec (q mod 2) 0) as [E|E]; cbn [negb].
        * exists ((if xorb s t' then -1 else 1) * q). split; [|apply R8; lia].
          split; [|split].
          -- destruct s, t'; cbn [sg xorb]; lia.
          -- destruct s, t'; cbn [sg]; lia.
          -- intros _. rewrite EV, Zeven_mod, E. reflexivity.
        * exists ((if xorb s t' then -1 else 1) * (q + 1)). split; [|apply R8; lia].
          split; [|split].
          -- destruct s, t'; cbn [sg xorb negb]; lia.
          -- destruct s, t'; cbn [sg negb]; lia.
          -- intros _. rewrite EV. rewrite Zeven_mod.
             pose proof (Z.mod_pos_bound q 2). pose proof (Z.div_mod q 2).
             apply Zeq_is_eq_bool. symmetry. apply (Z.mod_unique (q + 1) 2 (q / 2 + 1)); lia.
      + exists ((if xorb s t' then -1 else 1) * q). split; [|apply R8; lia].
        split; [|split].
        * destruct s, t'; cbn [sg xorb]; lia.
        * destruct s, t'; cbn [sg]; lia.
        * destruct s, t'; cbn [sg]; lia.
  Qed.

  Lemma rem_quo_user k s n t' m : repr f n -> repr f m ->
    2 ^ (lo c + prec c - 1) <= n -> 2 ^ (lo c + prec c - 1) <= m ->
    n / m + 1 <= tmax t ->
    exists b r q Q, rem_quo u lg (S k) f c t (Fin s n) (Fin t' m) = Ok (Fin b r, q)
      /\ ieee_rem (sg s n) (sg t' m) (sg b r) Q /\ q = Z.rem Q 8.
  Proof.
    intros RN RM Hn Hm Ht.
    pose proof (em_facts u c J) as EF. unfold emax in EF.
    assert (Lc := FltProof.il u c J). assert (Pc := ip u c J).
    assert (Pm := p2pos (lo c + prec c - 1) ltac:(lia)).
    assert (T0 : 1 <= tmax t) by (assert (0 <= n / m) by (apply Z.div_pos; lia); lia).
    unfold rem_quo. rewrite !isnan_fin, !feq_zero. unfold inf, ninf. rewrite !feq_inf. cbn [orb].
    destruct (Z.eqb_spec m 0); [lia|]. destruct (Z.eqb_spec n 0); [lia|].
    rewrite !(cast_up u f c I J SB) by assumption.
    rewrite (rem_quo_main u c J lg K t TS T0) by (auto using up').
    cbn [bind].
    pose proof (rq_spec s n t' m ltac:(lia) ltac:(lia)) as SP.
    destruct (rq_res s n m _) as (r, q) eqn:E.
    pose proof (rq_repr s n m _ r q RN RM ltac:(lia) ltac:(lia) E) as CR.
    rewrite CR. destruct r as [b|b|b v]; try contradiction.
    destruct SP as (Q & S1 & S2). exists b, v, q, Q. split; [reflexivity|]. split; assumption.
  Qed.

End F.

(** ** Non-finite arguments *)

Lemma fmod_special u lg k f c x y :
  (is_nan x \/ is_nan y \/ (exists s, x = Inf s) \/ (exists s, y = Fin s 0) ->
   exists r, fmod u lg k f c x y = Ok r /\ is_nan r)
  /\ (forall s n t, x = Fin s n -> y = Inf t -> fmod u lg k f c x y = Ok x)
  /\ (forall s t m, x = Fin s 0 -> y = Fin t m -> m <> 0 -> fmod u lg k f c x y = Ok x).
Proof.
  split; [|split].
  - intros H.
    destruct x as [s|s|s n].
    + destruct y as [t|t|t m].
      * eexists; split; [reflexivity|]. destruct (signbit _ || signbit _); exact Logic.I.
      * exists (Nan s); split; [destruct t; reflexivity|exact Logic.I].
      * exists (Nan s). split; [|exact Logic.I]. unfold fmod. rewrite isnan_fin. reflexivity.
    + destruct y as [t|t|t m].
      * exists (Nan t); split; [destruct s; reflexivity|exact Logic.I].
      * exists (fneg qnan). split; [destruct s, t; reflexivity|exact Logic.I].
      * exists (fneg qnan). split; [|exact Logic.I]. unfold fmod. rewrite isnan_fin.
        destruct s; reflexivity.
    + destruct y as [t|t|t m].
      * exists (Nan t). split; [|exact Logic.I]. unfold fmod. rewrite isnan_fin. reflexivity.
      * exfalso. destruct H as [H|[H|[(b & H)|(b & H)]]]; try contradiction; discriminate.
      * destruct H as [H|[H|[(b & H)|(b & H)]]]; try contradiction; try discriminate.
        injection H as -> ->. exists (fneg qnan). split; [|exact Logic.I].
        unfold fmod. rewrite !isnan_fin, feq_zero. cbn [Z.eqb].
        rewrite !orb_true_r. reflexivity.
  - intros s n t -> ->. unfold fmod. rewrite isnan_fin, !feq_zero.
    unfold isnan, inf, ninf. cbn [feq]. destruct t, (n =? 0); reflexivity.
  - intros s t m -> -> Hm. unfold fmod. rewrite !isnan_fin, !feq_zero. unfold inf, ninf.
    cbn [feq orb]. destruct (Z.eqb_spec m 0); [contradiction|reflexivity].
Qed.

(** ** Counterexamples *)

Ltac conj := repeat match goal with |- _ /\ _ => split end.

Lemma floor_tiny : floor 1074 true b64 b64 (Fin true 1) = Ok (Some (Fin true 0))
  /\ ceil 1074 true b64 b64 (Fin false 1) = Ok (Some (Fin false 0))
  /\ ifloor 1074 true b64 int (Fin true 1) = Ok (Some 0)
  /\ iceil 1074 true b64 int (Fin false 1) = Ok (Some 0).
Proof. conj; vm_compute; reflexivity. Qed.

Lemma limit_ub u ne f c s : ieee u f -> ieee u c -> sub_fmt f c -> prec f < 64 ->
  floor u ne f c (Fin s (2 ^ (u + 64))) = UB
  /\ ceil u ne f c (Fin s (2 ^ (u + 64))) = UB
  /\ round u ne f c (Fin s (2 ^ (u + 64))) = UB
  /\ trunc u ne f (Fin s (2 ^ (u + 64))) = UB.
Proof.
  intros I J SB P. assert (U := iu u f I). assert (O1 := one_pos u f I).
  assert (E : 2 ^ (u + 64) = 2 ^ 64 * one u) by (unfold one; rewrite Z.pow_add_r by lia; ring).
  assert (R : repr f (2 ^ (u + 64))).
  { apply repr_pow; [eapply ip, I|eapply FltProof.il, I|]. unfold ieee in I. lia. }
  set (n := 2 ^ (u + 64)) in *.
  assert (N : 0 < n) by (rewrite E; apply Z.mul_pos_pos; lia).
  assert (AB : above u f um (Fin s n) || above u f um (fneg (Fin s n)) = false).
  { assert (A : forall b, above u f um (Fin b n) = false).
    { intros b. unfold above. rewrite tmax_um, (of_int_max u f I) by lia.
      destruct (Z.leb_spec 64 (prec f)); [lia|]. rewrite <- E. cbn [flt sg].
      apply Z.ltb_ge. destruct b; cbn [sg]; lia. }
    cbn [fneg]. rewrite !A. reflexivity. }
  assert (T : to_int u um (Fin false n) = UB).
  { unfold to_int. cbn [sg]. rewrite E, Z.div_mul by lia. reflexivity. }
  unfold floor, ceil, round, rounding, trunc.
  rewrite isnan_fin, feq_zero. unfold inf, ninf. rewrite !feq_inf.
  destruct (Z.eqb_spec n 0); [lia|]. rewrite AB.
  rewrite (cast_up u f c I J SB) by exact R.
  unfold floor_impl, ceil_impl, round_impl. rewrite (flt_fin_zero s n N).
  destruct s; cbn [fneg negb]; rewrite T; cbn [bind]; auto.
Qed.

Lemma ilimit_ub u ne f : ieee u f -> prec f < 31 ->
  itrunc u ne f int (Fin false (2 ^ (u + 31))) = UB.
Proof.
  intros I P. assert (U := iu u f I). assert (O1 := one_pos u f I).
  assert (E : 2 ^ (u + 31) = 2 ^ 31 * one u) by (unfold one; rewrite Z.pow_add_r by lia; ring).
  set (n := 2 ^ (u + 31)) in *.
  assert (N : 0 < n) by (rewrite E; apply Z.mul_pos_pos; lia).
  assert (T : to_int u int (Fin false n) = UB).
  { unfold to_int. cbn [sg]. rewrite E, Z.div_mul by lia. reflexivity. }
  unfold itrunc, irounding, isinf.
  rewrite isnan_fin, feq_zero. unfold inf, ninf. rewrite !feq_inf. cbn [orb].
  destruct (Z.eqb_spec n 0); [lia|]. rewrite T. cbn [bind].
  destruct (above u f int (Fin false n) || below u f int (Fin false n)) eqn:AB; [|reflexivity].
  destruct ne; [reflexivity|]. exfalso.
  apply orb_true_iff in AB. destruct AB as [AB|AB].
  - unfold above in AB. change (tmax int) with (2 ^ 31 - 1) in AB.
    rewrite (of_int_max u f I) in AB by lia.
    destruct (Z.leb_spec 31 (prec f)); [lia|]. rewrite <- E in AB. cbn [flt sg] in AB. lia.
  - unfold below, of_int in AB. change (tmin int <? 0) with true in AB. unfold mk in AB.
    destruct (Z.leb_spec (2 ^ hi f) (round_q f (Z.abs (tmin int) * one u) 1)) as [B|B];
      cbn [flt sg] in AB; [discriminate|].
    assert (H : 0 <= Z.abs (tmin int) * one u) by (apply Z.mul_nonneg_nonneg; lia).
    pose proof (round_repr f _ 1 (ip u f I) (FltProof.il u f I) H ltac:(lia) B) as RR.
    pose proof (repr_range f _ RR (FltProof.il u f I)). lia.
Qed.

Lemma large_throws : floor 1074 false b64 b64 (Fin false (2 ^ (1074 + 65))) = Ok None.
Proof. vm_compute; reflexivity. Qed.

Lemma float_subnormal : repr b32 (2 ^ 925) /\ 2 ^ 925 < 2 ^ (lo b32 + prec b32 - 1)
  /\ fpclassify b64 (Fin false (2 ^ 925)) = FP_NORMAL
  /\ issubnormal b64 (Fin false (2 ^ 925)) = false
  /\ isnormal b64 (Fin false (2 ^ 925)) = true.
Proof.
  split; [unfold b32; apply repr_pow; cbn [prec lo hi]; lia|].
  conj; vm_compute; reflexivity.
Qed.

Lemma neg_zero n : 0 < n -> signbit (Fin true 0) = false
  /\ copysign (Fin false n) (Fin true 0) = Fin false n.
Proof.
  intros H. split; [reflexivity|]. unfold copysign. rewrite feq_zero, isnan_fin.
  destruct (Z.eqb_spec n 0); [lia|]. unfold broken_signbit. rewrite !isnan_fin.
  rewrite !flt_zero by lia. reflexivity.
Qed.

Lemma lessequal_refl x : islessequal x x = false.
Proof.
  unfold islessequal. destruct x as [s|s|s n]; [reflexivity|destruct s; reflexivity|].
  cbn [flt]. rewrite Z.ltb_irrefl, andb_false_r. reflexivity.
Qed.

Lemma fdim_inf f : fdim f inf inf = inf.
Proof. reflexivity. Qed.

Lemma fma_twice :
  fma 1074 b64 (Fin false (2 ^ 1074 + 2 ^ 1022)) (Fin false (2 ^ 1074 - 2 ^ 1022))
      (Fin true (2 ^ 1074)) = Fin false 0
  /\ (2 ^ 1074 + 2 ^ 1022) * (2 ^ 1074 - 2 ^ 1022) - 2 ^ 1074 * 2 ^ 1074 = - 2 ^ (1074 + 970)
  /\ repr b64 (2 ^ 970) /\ repr b64 (2 ^ 1074 + 2 ^ 1022) /\ repr b64 (2 ^ 1074 - 2 ^ 1022).
Proof.
  split; [vm_compute; reflexivity|]. split; [vm_compute; reflexivity|].
  split; [|split].
  - rewrite <- (Z.mul_1_l (2 ^ 970)). apply b64_repr; lia.
  - replace (2 ^ 1074 + 2 ^ 1022) with ((2 ^ 52 + 1) * 2 ^ 1022) by (vm_compute; reflexivity).
    apply b64_repr; lia.
  - replace (2 ^ 1074 - 2 ^ 1022) with ((2 ^ 52 - 1) * 2 ^ 1022) by (vm_compute; reflexivity).
    apply b64_repr; lia.
Qed.

Lemma equal_trans : let x i := Fin false (2 ^ 1074 + i * 2 ^ 1022) in
  equal_to 1074 b64 (x 0) (x 1) = true /\ equal_to 1074 b64 (x 1) (x 2) = true
  /\ equal_to 1074 b64 (x 0) (x 2) = false.
Proof. intros x; conj; vm_compute; reflexivity. Qed.

Lemma ldexp_wrong u f c s n e : ieee u f -> ieee u c -> sub_fmt f c -> repr f n -> 0 < n ->
  (e < - (hi c - u - 1) -> ldexp u f c (Fin s n) e = Fin s 0)
  /\ (hi c - u - 1 < e -> ldexp u f c (Fin s n) e = Inf s).
Proof.
  intros I J SB R N. pose proof (em_facts u c J) as EF. unfold emax in EF.
  unfold ldexp, scalbn. rewrite isnan_fin, feq_zero. unfold inf, ninf. rewrite !feq_inf.
  destruct (Z.eqb_spec n 0); [lia|].
  rewrite (cast_up u f c I J SB) by exact R.
  split; intros H; (destruct (Z.eqb_spec e 0); [lia|]).
  - rewrite (pow_two_small u c J) by (unfold emax; lia).
    unfold fmul. rewrite Z.mul_0_r, xorb_false_r.
    assert (Z0c : repr c 0) by (apply repr0; [eapply ip, J|eapply FltProof.il, J|unfold ieee in J; lia]).
    assert (Z0f : repr f 0) by (apply repr0; [eapply ip, I|eapply FltProof.il, I|unfold ieee in I; lia]).
    replace (mk c s 0 (one u)) with (Fin s 0); [apply (cast_down u f I), Z0f|].
    symmetry. rewrite <- (Z.mul_0_l (one u)) at 1.
    apply mk_exact; [eapply ip, J|eapply FltProof.il, J|exact Z0c|eapply one_pos, I].
  - rewrite (pow_two_big u c J) by (unfold emax; lia).
    unfold fmul. destruct (Z.eqb_spec n 0); [lia|]. rewrite xorb_false_r. reflexivity.
Qed.

Lemma frexp_wrong u f c lg k s n : ieee u f -> ieee u c -> sub_fmt f c -> lg_ok u c lg ->
  repr f n -> 2 ^ (hi f - 1) <= n ->
  float2_sig_exp u lg (S k) f c (Fin s n) = Ok (Fin s 0, hi f - u).
Proof.
  intros I J SB K R Hn.
  pose proof (em_facts u f I) as EF. pose proof (em_facts u c J) as EC. unfold emax in EF, EC.
  pose proof (repr_range f n R (FltProof.il u f I)) as Rg.
  assert (IL : ilogb u lg (S k) c (Fin s n) = Ok (hi f - 1 - u)).
  { assert (SB' := SB). destruct SB' as (S1 & S2 & S3).
    apply (ilogb_main u c J lg K); [apply (up u f c I SB), R| |unfold emax; lia].
    unfold has_exp. replace (u + (hi f - 1 - u)) with (hi f - 1) by lia.
    replace (hi f - 1 + 1) with (hi f) by lia. unfold ieee in I. lia. }
  unfold float2_sig_exp. rewrite isnan_fin, feq_zero. unfold inf, ninf. rewrite !feq_inf.
  assert (0 < 2 ^ (hi f - 1)) by (apply p2pos; unfold ieee in I; lia).
  destruct (Z.eqb_spec n 0); [lia|]. rewrite IL. cbn [bind].
  rewrite (pow_two_big u f I) by (unfold emax; lia). cbn [fdiv].
  rewrite xorb_false_r. do 2 f_equal. lia.
Qed.

Lemma rem_quo_doubles u c t n x y kk b y1 q iscy : sgn t = true -> 0 < q <= tmax t ->
  tmax t < q * 2 ^ Z.of_nat n -> 0 < y1 -> repr c y1 -> 1 <= prec c -> 0 <= lo c ->
  rem_quo_impl_5 u n c t x y kk q (Fin b 0) (Fin false y1)
    (fsub c (Fin b 0) (Fin false y1)) iscy = UB.
Proof.
  intros TS Hq Hn Hy Ry Pc Lc. revert b q Hq Hn.
  induction n as [|n IH]; intros b q Hq Hn; cbn [rem_quo_impl_5].
  { change (2 ^ Z.of_nat 0) with 1 in Hn. lia. }
  unfold ari at 1. rewrite TS.
  destruct ((tmin t <=? q + q) && (q + q <=? tmax t)) eqn:A; [|reflexivity].
  apply andb_true_iff in A. cbn [bind].
  replace (fsub c (Fin b 0) (Fin false y1)) with (Fin true y1).
  - replace (fle zero (Fin true y1)) with false.
    2:{ unfold fle. cbn [flt feq zero sg]. lia. }
    replace (fadd c (Fin b 0) (Fin b 0)) with (Fin b 0).
    2:{ cbn [fadd]. destruct b; reflexivity. }
    apply IH; [lia|].
    rewrite Nat2Z.inj_succ, Z.pow_succ_r in Hn by lia. nia.
  - cbn [fsub fneg fadd negb sg].
    replace (sg b 0 + - y1) with (- y1) by (destruct b; cbn [sg]; lia).
    destruct (Z.eqb_spec (- y1) 0); [lia|]. destruct (Z.ltb_spec (- y1) 0); [|lia].
    rewrite Z.abs_opp, Z.abs_eq by lia. symmetry. apply mk_exact1; auto.
Qed.

Lemma rem_quo_over u c lg k t i : ieee u c -> lg_ok u c lg -> sgn t = true -> 2 <= tmax t ->
  tmax t < 2 ^ i -> 0 < i <= hi c - u - 1 ->
  rem_quo u lg (S k) c c t (Fin false (2 ^ (u + i))) (Fin false (2 ^ u)) = UB.
Proof.
  intros J K TS T2 Ti Hi.
  pose proof (em_facts u c J) as EF. unfold emax in EF.
  assert (Pc := ip u c J). assert (Lc := FltProof.il u c J). assert (U := iu u c J).
  assert (RP : forall j, 0 <= j <= hi c - u - 1 -> repr c (2 ^ (u + j))).
  { intros j Hj. apply repr_pow; auto; lia. }
  assert (PP : forall j, 0 <= j -> 0 < 2 ^ (u + j)) by (intros j Hj; apply p2pos; lia).
  assert (IL : forall j, 0 <= j <= hi c - u - 1 ->
            ilogb u lg (S k) c (Fin false (2 ^ (u + j))) = Ok j).
  { intros j Hj. apply (ilogb_main u c J lg K); [apply RP, Hj| |unfold emax; lia].
    split; [split; [lia|]|lia]. apply Z.pow_lt_mono_r; lia. }
  assert (R0 := RP 0 ltac:(lia)). assert (P0 := PP 0 ltac:(lia)). assert (I0 := IL 0 ltac:(lia)).
  rewrite Z.add_0_r in R0, P0, I0.
  assert (Ri := RP i ltac:(lia)). assert (Pi := PP i ltac:(lia)). assert (Ii := IL i ltac:(lia)).
  unfold rem_quo. rewrite !isnan_fin, !feq_zero. unfold inf, ninf. rewrite !feq_inf. cbn [orb].
  destruct (Z.eqb_spec (2 ^ u) 0); [lia|]. destruct (Z.eqb_spec (2 ^ (u + i)) 0); [lia|].
  rewrite !(cast_up u c c J J (fmt_refl c)) by assumption.
  unfold rem_quo_impl. rewrite !fabs_fin by lia. cbv zeta.
  rewrite Ii, I0. cbn [bind]. rewrite Z.sub_0_r.
  destruct (Z.ltb_spec i 0); [lia|]. destruct (Z.eqb_spec i 0); [lia|].
  rewrite (scalbn_exact u c J false (2 ^ (u + i)) (- i) (2 ^ u)); auto;
    [|unfold emax; lia|].
  2:{ rewrite <- !Z.pow_add_r by lia. f_equal. lia. }
  rewrite (scalbn_exact u c J false (2 ^ u) (- 0) (2 ^ u)); auto; [|unfold emax; lia|].
  2:{ rewrite Z.opp_0, Z.add_0_r. reflexivity. }
  replace (Z.to_nat i) with (S (Z.to_nat (i - 1))) by lia. cbn [rem_quo_impl_5].
  assert (A0 : forall z, 0 <= z <= tmax t -> ari t z = Ok z) by (apply ari_ok; auto; lia).
  rewrite A0 by lia. cbn [bind].
  replace (fsub c (Fin false (2 ^ u)) (Fin false (2 ^ u))) with (Fin false 0).
  2:{ cbn [fsub fneg fadd negb sg]. rewrite Z.add_opp_diag_r. reflexivity. }
  change (fle zero (Fin false 0)) with true. cbv iota. rewrite A0 by lia. cbn [bind].
  change (fadd c (Fin false 0) (Fin false 0)) with (Fin false 0).
  rewrite (rem_quo_doubles u c t); auto; [lia|].
  rewrite Z2Nat.id by lia. change (0 + 0 + 2) with 2.
  rewrite <- Z.pow_succ_r by lia. replace (Z.succ (i - 1)) with i by lia. exact Ti.
Qed.

Lemma logb_forever k x e :
  logb_hi 1074 k b64 (Fin false x) (Fin false 0) (Inf false) e = Fuel \/ x = 0.
Proof.
  destruct (Z.eq_dec x 0) as [E|E]; [auto|left]. revert e.
  induction k as [|k IH]; intros e; [reflexivity|]. cbn [logb_hi].
  change (flt (Inf false) (f2 1074)) with false. cbn [negb].
  replace (fdiv 1074 b64 (Fin false 0) (f2 1074)) with (Fin false 0) by (vm_compute; reflexivity).
  replace (fmul 1074 b64 (Fin false 0) (f2 1074)) with (Fin false 0) by (vm_compute; reflexivity).
  replace (fdiv 1074 b64 (Fin false x) (Fin false 0)) with (Inf false); [apply IH|].
  cbn [fdiv]. rewrite Z.eqb_refl. destruct (Z.eqb_spec x 0); [contradiction|reflexivity].
Qed.

Lemma logb_subnormal k : ilogb 1074 (lg_exact 1074) k b64 (Fin false 1) = Fuel.
Proof.
  unfold ilogb, logb_fin.
  assert (A1 : fcast b64 (Fin false 1) = Fin false 1) by (vm_compute; reflexivity).
  assert (A2 : lg_exact 1074 (Fin false 1) = -1074) by (vm_compute; reflexivity).
  assert (A3 : pow_n 1074 b64 (f2 1074) (-1074) = Fin false 0).
  { apply (pow_two_small 1074 b64 b64_ieee). unfold emax, b64; cbn [hi]. lia. }
  assert (A4 : fdiv 1074 b64 (Fin false 1) (Fin false 0) = Inf false) by reflexivity.
  assert (A5 : fdiv 1074 b64 (Fin false 0) (f2 1074) = Fin false 0) by (vm_compute; reflexivity).
  assert (A6 : fmul 1074 b64 (Fin false 0) (f2 1074) = Fin false 0) by (vm_compute; reflexivity).
  assert (A7 : flt (Inf false) (f1 1074) = false) by reflexivity.
  assert (A8 : flt (Inf false) (f2 1074) = false) by reflexivity.
  change (iszero (Fin false 1)) with false. change (isinf (Fin false 1)) with false.
  change (isnan (Fin false 1)) with false. cbv iota.
  rewrite A1. unfold logb_impl. change (flt (Fin false 1) zero) with false. cbv iota zeta.
  rewrite A2, A3, A4. unfold logb_impl_3. rewrite A7, A8. cbn [negb].
  rewrite A5, A6, A4.
  destruct (logb_forever k 1 (-1074 + 1)) as [->|E]; [reflexivity|discriminate].
Qed.

Lemma fmod_subnormal k :
  fmod 1074 (lg_exact 1074) k b64 b64 (Fin false 1) (Fin false 1) = Fuel.
Proof.
  unfold fmod.
  change (isnan (Fin false 1)) with false. change (feq (Fin false 1) inf) with false.
  change (feq (Fin false 1) ninf) with false. change (feq (Fin false 1) zero) with false.
  cbn [orb].
  replace (fcast b64 (Fin false 1)) with (Fin false 1) by (vm_compute; reflexivity).
  unfold fmod_impl. change (fabs (Fin false 1)) with (Fin false 1).
  change (flt (Fin false 1) (Fin false 1)) with false. cbv iota zeta.
  rewrite logb_subnormal. reflexivity.
Qed.

(** ** The statements refuted *)

Lemma floor_refuted_lemma :
  ~ forall n m, repr b64 n -> n < 2 ^ 1074 ->
    floor 1074 true b64 b64 (Fin true n) = Ok (Some (Fin true m)) ->
    sg true m = sg true n / 2 ^ 1074 * 2 ^ 1074.
Proof.
  intros H. destruct floor_tiny as (E & _).
  assert (R : repr b64 1) by (change 1 with (1 * 2 ^ 0); apply b64_repr; lia).
  specialize (H 1 0 R ltac:(lia) E). cbn [sg] in H.
  rewrite (Z.div_opp_l_nz 1 (2 ^ 1074)) in H by (try rewrite Z.mod_small; lia).
  rewrite (Z.div_small 1) in H by lia. lia.
Qed.

Lemma ceil_refuted_lemma :
  ~ forall n m, repr b64 n -> n < 2 ^ 1074 ->
    ceil 1074 true b64 b64 (Fin false n) = Ok (Some (Fin false m)) ->
    sg false m = - (- sg false n / 2 ^ 1074 * 2 ^ 1074).
Proof.
  intros H. destruct floor_tiny as (_ & E & _).
  assert (R : repr b64 1) by (change 1 with (1 * 2 ^ 0); apply b64_repr; lia).
  specialize (H 1 0 R ltac:(lia) E). cbn [sg] in H.
  rewrite (Z.div_opp_l_nz 1 (2 ^ 1074)) in H by (try rewrite Z.mod_small; lia).
  rewrite (Z.div_small 1) in H by lia. lia.
Qed.

Lemma ifloor_refuted_lemma :
  (~ forall n z, repr b64 n -> n < 2 ^ 1074 ->
     ifloor 1074 true b64 int (Fin true n) = Ok (Some z) -> z * 2 ^ 1074 <= - n)
  /\ (~ forall n z, repr b64 n -> n < 2 ^ 1074 ->
     iceil 1074 true b64 int (Fin false n) = Ok (Some z) -> n <= z * 2 ^ 1074).
Proof.
  destruct floor_tiny as (_ & _ & E1 & E2).
  assert (R : repr b64 1) by (change 1 with (1 * 2 ^ 0); apply b64_repr; lia).
  split; intros H.
  - specialize (H 1 0 R ltac:(lia) E1). lia.
  - specialize (H 1 0 R ltac:(lia) E2). lia.
Qed.

Lemma no_ub_refuted_lemma :
  ~ forall s n, repr b64 n -> floor 1074 true b64 b64 (Fin s n) <> UB
    /\ ceil 1074 true b64 b64 (Fin s n) <> UB /\ round 1074 true b64 b64 (Fin s n) <> UB
    /\ trunc 1074 true b64 (Fin s n) <> UB.
Proof.
  intros H. destruct (limit_ub 1074 true b64 b64 false b64_ieee b64_ieee (fmt_refl _) ltac:(reflexivity))
    as (E & _).
  destruct (H false (2 ^ (1074 + 64))) as (N & _); [|contradiction].
  rewrite <- (Z.mul_1_l (2 ^ (1074 + 64))). apply b64_repr; lia.
Qed.

Lemma trans_refuted_lemma :
  ~ forall x y z, wf b64 x -> wf b64 y -> wf b64 z -> equal_to 1074 b64 x y = true ->
    equal_to 1074 b64 y z = true -> equal_to 1074 b64 x z = true.
Proof.
  intros H. destruct equal_trans as (E1 & E2 & E3).
  assert (R : forall i, 0 <= i <= 2 -> wf b64 (Fin false (2 ^ 1074 + i * 2 ^ 1022))).
  { intros i Hi. cbn [wf].
    replace (2 ^ 1074 + i * 2 ^ 1022) with ((2 ^ 52 + i) * 2 ^ 1022).
    - apply b64_repr; lia.
    - rewrite Z.mul_add_distr_r, <- Z.pow_add_r by lia. reflexivity. }
  rewrite (H _ _ _ (R 0 ltac:(lia)) (R 1 ltac:(lia)) (R 2 ltac:(lia)) E1 E2) in E3. discriminate.
Qed.

Lemma class_refuted_lemma :
  ~ forall n, repr b32 n -> 0 < n < 2 ^ (lo b32 + prec b32 - 1) ->
    fpclassify b64 (Fin false n) = FP_SUBNORMAL.
Proof.
  intros H. destruct float_subnormal as (R & L & E & _).
  assert (P : 0 < 2 ^ 925) by (apply p2pos; lia).
  rewrite (H _ R (conj P L)) in E. discriminate.
Qed.

Lemma sign_refuted_lemma :
  (~ forall x, ~ is_nan x -> signbit x = isneg x)
  /\ (~ forall x y, ~ is_nan x -> ~ is_nan y -> copysign x y = set_sign (isneg y) x).
Proof.
  split; intros H.
  - specialize (H (Fin true 0) ltac:(auto)). discriminate.
  - specialize (H (Fin false 1) (Fin true 0) ltac:(auto) ltac:(auto)).
    rewrite (proj2 (neg_zero 1 ltac:(lia))) in H. discriminate.
Qed.

Lemma lessequal_refuted_lemma :
  ~ forall x y, islessequal x y = true <-> lt_ext x y \/ eq_ext x y.
Proof.
  intros H. destruct (H (Inf false) (Inf false)) as (_ & B).
  rewrite lessequal_refl in B. specialize (B (or_intror (eq_inf false))). discriminate.
Qed.

Lemma lessequal_strict x y : islessequal x y = true <-> lt_ext x y.
Proof. apply (compare_main x y). Qed.

Lemma fma_refuted_lemma :
  ~ forall s n t m w k, repr b64 n -> repr b64 m -> repr b64 k ->
    sg (xorb s t) (n * m) + sg w k * 2 ^ 1074 <> 0 ->
    rounded b64 (sg (xorb s t) (n * m) + sg w k * 2 ^ 1074 <? 0)
      (Z.abs (sg (xorb s t) (n * m) + sg w k * 2 ^ 1074)) (2 ^ 1074)
      (fma 1074 b64 (Fin s n) (Fin t m) (Fin w k)).
Proof.
  intros H. destruct fma_twice as (E & E2 & R & R1 & R2).
  assert (R3 : repr b64 (2 ^ 1074)) by (rewrite <- (Z.mul_1_l (2 ^ 1074)); apply b64_repr; lia).
  specialize (H false _ false _ true _ R1 R2 R3). cbn [xorb] in H.
  rewrite E in H.
  replace (sg false ((2 ^ 1074 + 2 ^ 1022) * (2 ^ 1074 - 2 ^ 1022)) + sg true (2 ^ 1074) * 2 ^ 1074)
    with (- 2 ^ (1074 + 970)) in H by (rewrite <- E2; cbn [sg]; ring).
  assert (P := p2pos (1074 + 970) ltac:(lia)).
  destruct (H ltac:(lia)) as (S1 & _).
  destruct (Z.ltb_spec (- 2 ^ (1074 + 970)) 0); [discriminate|lia].
Qed.

Lemma fdim_refuted_lemma :
  ~ forall x y, ~ is_nan x -> ~ is_nan y -> lt_ext y x \/ fdim b64 x y = Fin false 0.
Proof.
  intros H. destruct (H inf inf ltac:(auto) ltac:(auto)) as [L|E].
  - inversion L.
  - rewrite fdim_inf in E. discriminate.
Qed.

Lemma ldexp_refuted_lemma :
  ~ forall n e m, repr b64 n -> repr b64 m -> m * 2 ^ 1030 = n -> e = -1030 ->
    ldexp 1074 b64 b64 (Fin false n) e = Fin false m.
Proof.
  intros H.
  assert (R1 : repr b64 (1 * 2 ^ 2044)) by (apply b64_repr; lia).
  assert (R2 : repr b64 (1 * 2 ^ 1014)) by (apply b64_repr; lia).
  assert (E : 1 * 2 ^ 1014 * 2 ^ 1030 = 1 * 2 ^ 2044)
    by (rewrite <- Z.mul_assoc, <- Z.pow_add_r by lia; reflexivity).
  specialize (H _ _ _ R1 R2 E eq_refl).
  assert (P : 0 < 1 * 2 ^ 2044) by (rewrite Z.mul_1_l; apply p2pos; lia).
  destruct (ldexp_wrong 1074 b64 b64 false (1 * 2 ^ 2044) (-1030) b64_ieee b64_ieee (fmt_refl _) R1 P)
    as (W & _).
  rewrite W in H by (unfold b64; cbn [hi]; lia).
  injection H as H. assert (0 < 1 * 2 ^ 1014) by (rewrite Z.mul_1_l; apply p2pos; lia). lia.
Qed.

Lemma logb_ends_refuted_lemma :
  ~ forall n, repr b64 n -> 0 < n -> exists k e, ilogb 1074 (lg_exact 1074) k b64 (Fin false n) = Ok e.
Proof.
  intros H.
  assert (R : repr b64 1) by (change 1 with (1 * 2 ^ 0); apply b64_repr; lia).
  destruct (H 1 R ltac:(lia)) as (k & e & E). rewrite logb_subnormal in E. discriminate.
Qed.

Lemma fmod_ends_refuted_lemma :
  ~ forall n m, repr b64 n -> repr b64 m -> 0 < m ->
    exists k r, fmod 1074 (lg_exact 1074) k b64 b64 (Fin false n) (Fin false m) = Ok r.
Proof.
  intros H.
  assert (R : repr b64 1) by (change 1 with (1 * 2 ^ 0); apply b64_repr; lia).
  destruct (H 1 1 R R ltac:(lia)) as (k & e & E). rewrite fmod_subnormal in E. discriminate.
Qed.
