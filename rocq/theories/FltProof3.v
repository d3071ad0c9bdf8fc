(** Integer-valued rounding, fractional parts, classification, comparison and the like. *)
From Coq Require Import List Arith ZArith Bool Lia.
From Verif Require Import Base BitModel BitSpec BitProof FltModel FltSpec FltProof FltProof2.
Import ListNotations.
Open Scope Z_scope.

Lemma fsub_gen u f s n t m : ieee u f -> repr f (Z.abs (sg s n - sg t m)) ->
  fsub f (Fin s n) (Fin t m) =
    if sg s n - sg t m =? 0 then Fin (s && negb t) 0
    else Fin (sg s n - sg t m <? 0) (Z.abs (sg s n - sg t m)).
Proof.
  intros I R. unfold fsub, fneg, fadd.
  replace (sg s n + sg (negb t) m) with (sg s n - sg t m) by (destruct s, t; cbn [sg negb]; lia).
  destruct (Z.eqb_spec (sg s n - sg t m) 0); [reflexivity|].
  apply mk_exact1; auto; [eapply ip, I|eapply FltProof.il, I].
Qed.

Section R.
  Variable u : Z.
  Variable f : fmt.
  Hypothesis I : ieee u f.
  Variable ne : bool.

  Notation one := (one u).
  Let O : 0 < one := one_pos u f I.

  (** A number in the integral position of x: the same value as x0, whatever sign a zero
      has. *)
  Lemma equal_gen s n t m : repr f n -> 0 < n -> clear_of u f n -> 0 <= m ->
    sg t m = sg s (n / one * one) ->
    equal_to u f (Fin s n) (Fin t m) = (n mod one =? 0).
  Proof.
    intros R Hn C Hm E.
    pose proof (Z.div_mod n one ltac:(lia)) as D.
    pose proof (Z.mod_pos_bound n one O) as B.
    assert (T0 : 0 <= n / one * one) by (assert (0 <= n / one) by (apply Z.div_pos; lia); nia).
    assert (Em : m = n / one * one) by (destruct s, t; cbn [sg] in E; lia).
    assert (Ed : sg s n - sg t m = sg s (n mod one)) by (rewrite E; destruct s; cbn [sg]; lia).
    unfold equal_to.
    destruct (Z.eqb_spec (n mod one) 0) as [Z0|Z0].
    - replace (feq _ _) with true; [reflexivity|]. symmetry. unfold feq.
      apply Z.eqb_eq. rewrite Z0 in Ed. replace (sg s 0) with 0 in Ed by (destruct s; reflexivity). lia.
    - replace (feq _ _) with false.
      2: { symmetry. unfold feq. apply Z.eqb_neq. intros X. rewrite X, Z.sub_diag in Ed. destruct s; cbn [sg] in Ed; lia. }
      cbn [orb].
      rewrite (fsub_gen u f) by (auto; rewrite Ed, sg_abs by lia; apply repr_frac; auto).
      rewrite Ed. destruct (Z.eqb_spec (sg s (n mod one)) 0) as [Z1|Z1];
        [destruct s; cbn [sg] in Z1; lia|].
      rewrite !sg_abs by lia. rewrite !fabs_fin by lia. unfold max3, f1. rewrite !max2_fin.
      replace (Z.max (Z.max n m) one) with (Z.max n one) by lia.
      assert (RM : repr f (Z.max n one)).
      { destruct (Z.max_spec n one) as [(_ & ->)|(_ & ->)]; [apply repr_one; auto|auto]. }
      destruct (eps_mul u f I (Z.max n one) RM ltac:(unfold FltModel.one in *; lia)) as (-> & EM).
      destruct C as [C|C]; [unfold FltModel.one in *; lia|]. fold one in C.
      unfold fle, flt, feq. cbn [sg].
      assert (Pp := p2pos (prec f - 1) ltac:(destruct I; lia)).
      set (M := Z.max n one) in *. set (Q := M / 2 ^ (prec f - 1)) in *.
      assert (Q < n mod one) by nia.
      destruct (Z.ltb_spec (n mod one) Q); [lia|].
      destruct (Z.eqb_spec (n mod one) Q); [lia|reflexivity].
  Qed.

  Variable t : ity.
  Hypothesis T : 32 <= wid t <= 64.

  Lemma tmax_pow : exists w, 1 <= w <= 64 /\ tmax t = 2 ^ w - 1.
  Proof.
    unfold tmax. destruct (sgn t); [exists (wid t - 1)|exists (wid t)]; split; auto; lia.
  Qed.

  Lemma not_above s n : sg s n <= tmax t * one -> above u f t (Fin s n) = false.
  Proof.
    intros H. destruct tmax_pow as (w & Hw & E). unfold above. rewrite E in *.
    rewrite (of_int_max u f I) by exact Hw. unfold flt. cbn [sg]. apply Z.ltb_ge.
    destruct (w <=? prec f); [exact H|]. fold one. nia.
  Qed.

  Lemma tmin_cases : tmin t = 0 \/ tmin t = - 2 ^ (wid t - 1).
  Proof. unfold tmin. destruct (sgn t); auto. Qed.

  Lemma not_below s n : tmin t * one <= sg s n -> below u f t (Fin s n) = false.
  Proof.
    intros H. unfold below.
    assert (P := ip u f I). assert (L := FltProof.il u f I).
    assert (Hu : 0 <= u /\ lo f <= u /\ u + 64 < hi f) by (unfold ieee in I; lia).
    destruct tmin_cases as [E|E]; rewrite E in *.
    - unfold of_int. replace (Z.abs 0 * one) with 0 by lia.
      rewrite mk_exact1 by (auto; apply repr0; auto; lia).
      unfold flt. change (sg (0 <? 0) 0) with 0. apply Z.ltb_ge. lia.
    - assert (Pw := p2pos (wid t - 1) ltac:(lia)).
      unfold of_int. rewrite Z.abs_opp, Z.abs_eq by lia.
      replace (- 2 ^ (wid t - 1) <? 0) with true by lia.
      unfold FltModel.one in *. rewrite <- Z.pow_add_r by lia.
      rewrite mk_exact1 by (auto; apply repr_pow; auto; lia).
      unfold flt. cbn [sg]. apply Z.ltb_ge. rewrite Z.pow_add_r by lia. lia.
  Qed.

  Lemma to_int_in s n : 0 <= n -> tmin t * one <= sg s n <= tmax t * one ->
    to_int u t (Fin s n) = Ok (sg s (n / one)).
  Proof.
    intros Hn H. unfold to_int. fold one.
    assert (T0 : tmin t <= 0) by (destruct tmin_cases as [->| ->]; [lia|];
      pose proof (p2pos (wid t - 1)); lia).
    assert (T1 : 0 <= tmax t).
    { destruct tmax_pow as (w & Hw & ->). pose proof (p2pos w). lia. }
    assert (Q : 0 <= n / one) by (apply Z.div_pos; lia).
    pose proof (Z.mul_div_le n one O).
    replace ((tmin t <=? sg s (n / one)) && (sg s (n / one) <=? tmax t)) with true; [reflexivity|].
    symmetry. apply andb_true_iff. rewrite !Z.leb_le.
    destruct s; cbn [sg] in *; nia.
  Qed.

  Lemma ari_in z : tmin t <= z <= tmax t -> ari t z = Ok z.
  Proof.
    intros H. unfold ari. destruct (sgn t) eqn:S.
    - replace ((tmin t <=? z) && (z <=? tmax t)) with true; [reflexivity|].
      symmetry. apply andb_true_iff. lia.
    - f_equal. apply conv_id. unfold is_val, tmin, tmax in *. rewrite S in *. lia.
  Qed.

  Lemma irounding_in impl s n : 0 < n -> tmin t * one <= sg s n <= tmax t * one ->
    irounding u ne f t impl (Fin s n) = (z <- impl (Fin s n) (sg s (n / one)) ;; Ok (Some z)).
  Proof.
    intros Hn H. unfold irounding. rewrite isnan_fin, feq_zero. unfold isinf, inf, ninf, feq.
    cbn [orb]. destruct (Z.eqb_spec n 0); [lia|].
    rewrite not_above, not_below by lia. cbn [orb].
    rewrite to_int_in by lia. reflexivity.
  Qed.

  Lemma irounding_zero impl s : irounding u ne f t impl (Fin s 0) = Ok (Some 0).
  Proof. unfold irounding. rewrite isnan_fin, feq_zero. reflexivity. Qed.

  Lemma of_int_trunc s n : repr f n -> 0 < n -> exists t m, of_int u f (sg s (n / one)) = Fin t m
    /\ sg t m = sg s (n / one * one) /\ 0 <= m.
  Proof.
    intros R Hn. assert (Q : 0 <= n / one) by (apply Z.div_pos; lia).
    exists (sg s (n / one) <? 0), (n / one * one). split; [|split; [|nia]].
    - unfold of_int. rewrite sg_abs by exact Q. fold one.
      apply mk_exact1; [eapply ip, I|eapply FltProof.il, I|apply repr_trunc; auto].
    - destruct s; cbn [sg].
      + destruct (Z.ltb_spec (- (n / one)) 0); cbn [sg]; nia.
      + destruct (Z.ltb_spec (n / one) 0); cbn [sg]; nia.
  Qed.

  Lemma itrunc_main s n : repr f n -> tmin t * one <= sg s n <= tmax t * one ->
    itrunc u ne f t (Fin s n) = Ok (Some (Z.quot (sg s n) one)).
  Proof.
    intros R H. pose proof (repr_range f n R (FltProof.il u f I)) as Rg.
    destruct (Z.eq_dec n 0) as [->|Hn].
    { unfold itrunc. rewrite irounding_zero. destruct s; cbn [sg]; rewrite ?Z.quot_0_l; auto; lia. }
    unfold itrunc. rewrite irounding_in by lia. cbn [bind]. do 2 f_equal.
    destruct s; cbn [sg].
    - rewrite Z.quot_opp_l, Z.quot_div_nonneg by lia. reflexivity.
    - rewrite Z.quot_div_nonneg by lia. reflexivity.
  Qed.

  Lemma ifloor_main s n : repr f n -> tmin t * one <= sg s n <= tmax t * one ->
    (s = true -> clear_of u f n) ->
    ifloor u ne f t (Fin s n) = Ok (Some (sg s n / one)).
  Proof.
    intros R H C. pose proof (repr_range f n R (FltProof.il u f I)) as Rg.
    destruct (Z.eq_dec n 0) as [->|Hn0].
    { unfold ifloor. rewrite irounding_zero. destruct s; cbn [sg]; rewrite Z.div_0_l by lia;
        reflexivity. }
    assert (Hn : 0 < n) by lia.
    pose proof (Z.div_mod n one ltac:(lia)) as D.
    pose proof (Z.mod_pos_bound n one O) as B.
    unfold ifloor. rewrite irounding_in by lia.
    destruct (of_int_trunc s n R Hn) as (b & m & E & V & Hm). rewrite E.
    unfold greater_equal. destruct s.
    - rewrite equal_gen by auto.
      destruct (Z.eqb_spec (n mod one) 0) as [Z0|Z0]; cbn [orb bind sg].
      + do 2 f_equal. rewrite (neg_div_exact u f I) by exact Z0. reflexivity.
      + unfold flt. rewrite V. cbn [sg].
        replace (- (n / one * one) <? - n) with false by lia.
        rewrite ari_in.
        * cbn [bind]. do 2 f_equal. rewrite (neg_div_frac u f I) by exact Z0. lia.
        * cbn [sg] in H.
          assert (T1 : 0 <= tmax t).
          { destruct tmax_pow as (w & Hw & ->). pose proof (p2pos w). lia. }
          assert (0 <= n / one) by (apply Z.div_pos; lia). nia.
    - cbn [sg] in *. destruct (Z.eq_dec (n mod one) 0) as [Z0|Z0].
      + unfold equal_to, feq. rewrite V. cbn [sg].
        replace (n =? n / one * one) with true by lia. cbn [orb bind]. reflexivity.
      + unfold flt. rewrite V. cbn [sg]. replace (n / one * one <? n) with true by lia.
        rewrite orb_true_r. reflexivity.
  Qed.

  Lemma iceil_main s n : repr f n -> tmin t * one <= sg s n <= tmax t * one ->
    (s = false -> clear_of u f n) ->
    iceil u ne f t (Fin s n) = Ok (Some (- (- sg s n / one))).
  Proof.
    intros R H C. pose proof (repr_range f n R (FltProof.il u f I)) as Rg.
    destruct (Z.eq_dec n 0) as [->|Hn0].
    { unfold iceil. rewrite irounding_zero. destruct s; cbn [sg]; cbn [Z.opp];
        rewrite Z.div_0_l by lia; reflexivity. }
    assert (Hn : 0 < n) by lia.
    pose proof (Z.div_mod n one ltac:(lia)) as D.
    pose proof (Z.mod_pos_bound n one O) as B.
    unfold iceil. rewrite irounding_in by lia.
    destruct (of_int_trunc s n R Hn) as (b & m & E & V & Hm). rewrite E.
    unfold less_equal. destruct s.
    - cbn [sg] in *. rewrite Z.opp_involutive.
      destruct (Z.eq_dec (n mod one) 0) as [Z0|Z0].
      + unfold equal_to, feq. rewrite V. cbn [sg].
        replace (- n =? - (n / one * one)) with true by lia. cbn [orb bind]. reflexivity.
      + unfold flt. rewrite V. cbn [sg]. replace (- n <? - (n / one * one)) with true by lia.
        rewrite orb_true_r. reflexivity.
    - rewrite equal_gen by auto.
      destruct (Z.eqb_spec (n mod one) 0) as [Z0|Z0]; cbn [orb bind sg].
      + do 2 f_equal. rewrite (neg_div_exact u f I) by exact Z0. lia.
      + unfold flt. rewrite V. cbn [sg].
        replace (n <? n / one * one) with false by lia.
        rewrite ari_in.
        * cbn [bind]. do 2 f_equal. rewrite (neg_div_frac u f I) by exact Z0. lia.
        * cbn [sg] in H.
          assert (T0 : tmin t <= 0) by (destruct tmin_cases as [->| ->]; [lia|];
            pose proof (p2pos (wid t - 1)); lia).
          assert (0 <= n / one) by (apply Z.div_pos; lia). nia.
  Qed.

  Lemma iround_main s n : repr f n -> tmin t * one <= sg s n <= tmax t * one ->
    exists z, iround u ne f t (Fin s n) = Ok (Some z)
      /\ 2 * Z.abs (z * one - sg s n) <= one
      /\ (2 * Z.abs (z * one - sg s n) = one -> Z.abs (sg s n) < Z.abs (z * one)).
  Proof.
    intros R H. pose proof (repr_range f n R (FltProof.il u f I)) as Rg.
    destruct (Z.eq_dec n 0) as [->|Hn0].
    { exists 0. unfold iround. rewrite irounding_zero. split; [reflexivity|].
      destruct s; cbn [sg]; lia. }
    assert (Hn : 0 < n) by lia.
    pose proof (Z.div_mod n one ltac:(lia)) as D.
    pose proof (Z.mod_pos_bound n one O) as B.
    assert (Hh : 2 * 2 ^ (u - 1) = one).
    { unfold FltModel.one. rewrite <- Z.pow_succ_r by (unfold ieee in I; lia). f_equal. lia. }
    assert (Q : 0 <= n / one) by (apply Z.div_pos; lia).
    assert (RF : repr f (n mod one)) by (apply repr_frac; auto).
    unfold iround. rewrite irounding_in by lia.
    rewrite (flt_fin_zero s n) by exact Hn.
    destruct (of_int_trunc s n R Hn) as (b & m & E & V & Hm). rewrite E.
    set (z := sg s (if n mod one <? 2 ^ (u - 1) then n / one else n / one + 1)).
    exists z. split.
    - assert (RNG : n mod one <> 0 -> tmin t <= sg s (n / one + 1) <= tmax t).
      { intros Z0.
        assert (T0 : tmin t <= 0) by (destruct tmin_cases as [->| ->]; [lia|];
          pose proof (p2pos (wid t - 1)); lia).
        assert (T1 : 0 <= tmax t).
        { destruct tmax_pow as (w & Hw & ->). pose proof (p2pos w). lia. }
        destruct s; cbn [sg] in *; nia. }
      assert (Ph := p2pos (u - 1) ltac:(unfold ieee in I; lia)).
      destruct s; cbn [sg] in V.
      + rewrite (fsub_gen u f) by
          (auto; rewrite V; cbn [sg]; replace (Z.abs _) with (n mod one) by lia; auto).
        rewrite V. cbn [sg]. replace (- (n / one * one) - - n) with (n mod one) by lia.
        unfold z, half.
        destruct (Z.eqb_spec (n mod one) 0) as [Z0|Z0].
        * rewrite Z0. unfold flt. replace (0 <? 2 ^ (u - 1)) with true by lia.
          destruct b; cbn [sg andb negb]; replace (0 <? 2 ^ (u - 1)) with true by lia;
            reflexivity.
        * replace (n mod one <? 0) with false by lia. rewrite Z.abs_eq by lia.
          unfold flt. cbn [sg].
          destruct (Z.ltb_spec (n mod one) (2 ^ (u - 1))); [reflexivity|].
          specialize (RNG Z0). cbn [sg] in RNG.
          rewrite ari_in by lia. cbn [bind]. do 2 f_equal. lia.
      + rewrite (fsub_gen u f) by
          (auto; rewrite V; cbn [sg]; replace (Z.abs _) with (n mod one) by lia; auto).
        rewrite V. cbn [sg]. replace (n - n / one * one) with (n mod one) by lia.
        unfold z, half.
        destruct (Z.eqb_spec (n mod one) 0) as [Z0|Z0].
        * rewrite Z0. unfold flt. cbn [sg andb]. replace (0 <? 2 ^ (u - 1)) with true by lia.
          reflexivity.
        * replace (n mod one <? 0) with false by lia. rewrite Z.abs_eq by lia.
          unfold flt. cbn [sg].
          destruct (Z.ltb_spec (n mod one) (2 ^ (u - 1))); [reflexivity|].
          specialize (RNG Z0). cbn [sg] in RNG.
          rewrite ari_in by lia. reflexivity.
    - unfold z. destruct (Z.ltb_spec (n mod one) (2 ^ (u - 1))); destruct s; cbn [sg]; nia.
  Qed.

End R.

Section S.
  Variable u : Z.
  Variable f : fmt.
  Hypothesis I : ieee u f.
  Hypothesis P64 : prec f <= 64.
  Variable ne : bool.

  Notation one := (one u).
  Let O : 0 < one := one_pos u f I.

  Lemma copysign_fin s n t m : 0 < n -> 0 < m ->
    copysign (Fin s n) (Fin t m) = Fin t n.
  Proof.
    intros Hn Hm. unfold copysign, broken_signbit.
    rewrite !feq_zero, !isnan_fin, !flt_fin_zero by assumption.
    destruct (Z.eqb_spec n 0); [lia|]. destruct s, t; reflexivity.
  Qed.

  Lemma integer_part_main s n : repr f n -> dom u ne n ->
    integer_part u ne f (Fin s n) = Ok (Some (Fin s (n / one * one))).
  Proof.
    intros R D. unfold integer_part. rewrite isnan_fin, feq_zero.
    unfold inf, ninf. rewrite !feq_inf.
    destruct (Z.eqb_spec n 0) as [->|Hn]; [rewrite Z.div_0_l by lia; reflexivity|].
    apply trunc_main; auto.
  Qed.

  Lemma frac_part s n : repr f n -> 0 < n ->
    (if feq (Fin s n) (Fin s (n / one * one)) then fmul u f zero (Fin s n)
     else copysign (fsub f (Fin s n) (Fin s (n / one * one))) (Fin s n))
    = Fin s (n mod one).
  Proof.
    intros R Hn.
    pose proof (Z.div_mod n one ltac:(lia)) as D.
    pose proof (Z.mod_pos_bound n one O) as B.
    assert (Q : 0 <= n / one) by (apply Z.div_pos; lia).
    assert (P := ip u f I). assert (L := FltProof.il u f I).
    unfold feq. destruct (Z.eqb_spec (sg s n) (sg s (n / one * one))) as [E|E].
    - replace (n mod one) with 0 by (destruct s; cbn [sg] in E; lia).
      unfold fmul, zero. cbn [xorb].
      replace (0 * n) with (0 * FltModel.one u) by lia.
      rewrite mk_exact; auto; [destruct s; reflexivity|]. apply repr0; auto.
      unfold ieee in I. lia.
    - assert (n mod one <> 0) by (intros Z0; apply E; f_equal; lia).
      rewrite (fsub_same u f I) by
        (try nia; replace (Z.abs (n - n / one * one)) with (n mod one) by lia;
         apply repr_frac; auto).
      destruct (Z.eqb_spec n (n / one * one)); [lia|].
      rewrite copysign_fin by lia. f_equal. lia.
  Qed.

  Lemma frac_int_main s n : repr f n -> dom u ne n ->
    frac_int u ne f (Fin s n) = Ok (Some (Fin s (n mod one), Fin s (n / one * one)))
    /\ fractional_part u ne f (Fin s n) = Ok (Some (Fin s (n mod one)))
    /\ is_integer u ne f (Fin s n) = Ok (Some (n mod one =? 0)).
  Proof.
    intros R D. pose proof (repr_range f n R (FltProof.il u f I)) as Rg.
    pose proof (Z.div_mod n one ltac:(lia)) as DM.
    assert (Q : 0 <= n / one) by (apply Z.div_pos; lia).
    split; [|split].
    - unfold frac_int. rewrite integer_part_main by auto. cbn [bind].
      rewrite isnan_fin, feq_zero. unfold inf, ninf. rewrite !feq_inf. cbn [orb].
      destruct (Z.eqb_spec n 0) as [->|Hn].
      { rewrite Z.mod_0_l by lia. reflexivity. }
      pose proof (frac_part s n R ltac:(lia)) as E.
      destruct (feq (Fin s n) (Fin s (n / one * one))); rewrite E; reflexivity.
    - unfold fractional_part. rewrite isnan_fin, feq_zero. unfold inf, ninf. rewrite !feq_inf.
      cbn [orb]. destruct (Z.eqb_spec n 0) as [->|Hn].
      { rewrite Z.mod_0_l by lia. reflexivity. }
      rewrite integer_part_main by auto. cbn [bind].
      rewrite (frac_part s n R ltac:(lia)). reflexivity.
    - unfold is_integer. unfold isfinite, isinf. rewrite isnan_fin.
      unfold inf, ninf. rewrite !feq_inf. cbn [orb negb].
      rewrite trunc_main by auto. cbn [bind]. do 2 f_equal. unfold feq.
      destruct (Z.eqb_spec (sg s n) (sg s (n / one * one))) as [E|E],
        (Z.eqb_spec (n mod one) 0); auto; destruct s; cbn [sg] in E; lia.
  Qed.

  (** ** Classification *)

  Lemma subnormal_fin s n : 0 < n ->
    issubnormal_or_zero f (Fin s n) = (n <? 2 ^ (lo f + prec f - 1)).
  Proof.
    intros Hn. unfold issubnormal_or_zero, fl_min, flt, zero, fneg. cbn [sg].
    destruct s; cbn [sg negb].
    - destruct (Z.ltb_spec 0 (- n)); [lia|].
      destruct (Z.ltb_spec (- 2 ^ (lo f + prec f - 1)) (- n)),
        (Z.ltb_spec n (2 ^ (lo f + prec f - 1))); lia.
    - destruct (Z.ltb_spec 0 n); [reflexivity|lia].
  Qed.

  Lemma classify_main x : wf f x ->
    fpclassify f x =
      match x with
      | Nan _ => FP_NAN
      | Inf _ => FP_INFINITE
      | Fin _ n => if n =? 0 then FP_ZERO
                   else if n <? 2 ^ (lo f + prec f - 1) then FP_SUBNORMAL else FP_NORMAL
      end
    /\ isnormal f x = (match fpclassify f x with FP_NORMAL => true | _ => false end)
    /\ issubnormal f x = (match fpclassify f x with FP_SUBNORMAL => true | _ => false end).
  Proof.
    intros W. destruct x as [s|s|s n].
    - split; [reflexivity|]. split; reflexivity.
    - split; [destruct s; reflexivity|]. split; [destruct s; reflexivity|].
      unfold issubnormal, issubnormal_or_zero, fl_min. destruct s; reflexivity.
    - pose proof (repr_range f n W (FltProof.il u f I)) as Rg.
      unfold fpclassify, isnormal, issubnormal, isinf, inf, ninf, iszero.
      rewrite isnan_fin, feq_zero. rewrite !feq_inf. cbn [orb negb andb].
      destruct (Z.eqb_spec n 0) as [->|Hn].
      + split; [reflexivity|]. split; [|reflexivity].
        unfold issubnormal_or_zero, flt, zero, fl_min, fneg.
        assert (Pm := p2pos (lo f + prec f - 1) ltac:(unfold ieee in I; lia)).
        destruct s; cbn [sg negb]; change (0 <? - 0) with false; change (0 <? 0) with false;
          cbv iota; apply negb_false_iff; lia.
      + rewrite subnormal_fin by lia.
        split; [reflexivity|]. destruct (n <? 2 ^ (lo f + prec f - 1)); split; reflexivity.
  Qed.

  Lemma signbit_main x : ~ is_nan x -> (match x with Fin _ n => 0 < n | _ => True end) ->
    signbit x = isneg x.
  Proof.
    intros N W. destruct x as [s|s|s n]; [destruct (N Logic.I)|destruct s; reflexivity|].
    unfold signbit, broken_signbit. rewrite isnan_fin, flt_fin_zero by exact W. reflexivity.
  Qed.

End S.

Lemma copysign_main x y : (match x with Fin _ n => 0 <= n | _ => True end) -> ~ is_nan y ->
  (match y with Fin _ n => 0 < n | _ => True end) -> copysign x y = set_sign (isneg y) x.
Proof.
  intros W N Y.
  assert (B : broken_signbit y = isneg y) by (apply (signbit_main y N Y)).
  assert (FY : feq y zero = false /\ isnan y = false).
  { destruct y as [b|b|b m]; [destruct (N Logic.I)| |].
    - split; destruct b; reflexivity.
    - rewrite feq_zero, isnan_fin. split; [apply Z.eqb_neq; lia|reflexivity]. }
  destruct FY as (FY & NY).
  unfold copysign. rewrite FY, NY, B.
  destruct x as [s|s|s n].
  - cbn [feq zero]. unfold isnan, feq. cbn [negb]. destruct (isneg y); reflexivity.
  - unfold isnan, feq, zero, broken_signbit. rewrite eqb_reflx. cbn [negb].
    unfold isnan, feq, flt. rewrite eqb_reflx. cbn [negb andb].
    destruct (isneg y), s; reflexivity.
  - rewrite feq_zero, isnan_fin. destruct (Z.eqb_spec n 0) as [->|Hn].
    + destruct (isneg y); reflexivity.
    + unfold broken_signbit. rewrite isnan_fin, flt_fin_zero by lia. cbn [negb andb].
      destruct (isneg y), s; reflexivity.
Qed.

Lemma fabs_main x : (match x with Fin _ n => 0 <= n | _ => True end) ->
  fabs x = set_sign false x.
Proof.
  intros W. destruct x as [s|s|s n].
  - reflexivity.
  - destruct s; reflexivity.
  - cbn [set_sign]. apply fabs_fin. exact W.
Qed.

(** ** Comparison *)

Lemma flt_iff x y : flt x y = true <-> lt_ext x y.
Proof.
  split.
  - destruct x as [s|s|s n], y as [t|t|t m]; cbn [flt]; try discriminate.
    + destruct s, t; try discriminate. intros _. constructor.
    + destruct s; try discriminate. intros _. constructor.
    + destruct t; try discriminate. intros _. constructor.
    + intros H. constructor. lia.
  - intros []; cbn [flt]; auto. lia.
Qed.

Lemma feq_iff x y : feq x y = true <-> eq_ext x y.
Proof.
  split.
  - destruct x as [s|s|s n], y as [t|t|t m]; cbn [feq]; try discriminate.
    + intros E. apply eqb_prop in E. subst. constructor.
    + intros H. constructor. lia.
  - intros []; cbn [feq]; [lia|apply eqb_reflx].
Qed.

Lemma isnan_iff x : isnan x = true <-> is_nan x.
Proof.
  destruct x as [s|s|s n]; unfold isnan; cbn [feq is_nan].
  - tauto.
  - rewrite eqb_reflx. cbn. split; [discriminate|tauto].
  - rewrite Z.eqb_refl. cbn. split; [discriminate|tauto].
Qed.

Lemma lt_not_nan x y : lt_ext x y -> isnan x = false /\ isnan y = false.
Proof.
  intros []; rewrite ?isnan_fin; split; reflexivity.
Qed.
Lemma eq_not_nan x y : eq_ext x y -> isnan x = false /\ isnan y = false.
Proof.
  intros []; rewrite ?isnan_fin; [split; reflexivity|]. destruct s; split; reflexivity.
Qed.

Lemma compare_main x y :
  (isless x y = true <-> lt_ext x y) /\ (isgreater x y = true <-> lt_ext y x)
  /\ (isgreaterequal x y = true <-> lt_ext y x \/ eq_ext y x)
  /\ (islessgreater x y = true <-> lt_ext x y \/ lt_ext y x)
  /\ (isunordered x y = true <-> is_nan x \/ is_nan y)
  /\ (isunordered x y = false -> lt_ext x y \/ eq_ext x y \/ lt_ext y x).
Proof.
  unfold isless, isgreater, isgreaterequal, islessgreater, isunordered, fle.
  rewrite !andb_true_iff, !orb_true_iff, !negb_true_iff, !flt_iff, feq_iff, !isnan_iff.
  pose proof (lt_not_nan x y). pose proof (lt_not_nan y x). pose proof (eq_not_nan y x).
  repeat split; try tauto.
  destruct x as [s|s|s n], y as [t|t|t m]; unfold isnan; cbn [feq negb orb];
    rewrite ?orb_true_r; try discriminate; intros _.
  - destruct s, t; [right; left|left|right; right|right; left]; constructor.
  - destruct s; [left|right; right]; constructor.
  - destruct t; [right; right|left]; constructor.
  - destruct (Z.lt_trichotomy (sg s n) (sg t m)) as [H2|[H2|H2]];
      [left|right; left|right; right]; constructor; assumption.
Qed.

Lemma fmin_main x y : ~ is_nan x -> ~ is_nan y ->
  (fmin x y = x \/ fmin x y = y) /\ ~ lt_ext x (fmin x y) /\ ~ lt_ext y (fmin x y).
Proof.
  intros NX NY. rewrite <- !flt_iff.
  unfold fmin. rewrite <- isnan_iff in NX, NY.
  destruct (isnan x); [tauto|]. destruct (isnan y); [tauto|].
  destruct x as [s|s|s n], y as [t|t|t m]; cbn [is_nan feq flt inf ninf] in *;
    try (destruct s); try (destruct t); cbn [Bool.eqb andb negb];
    try (split; [auto|split; discriminate]);
    try (destruct (Z.ltb_spec (sg t m) (sg s n)));
    try (cbn [flt]; split; [auto|split; try discriminate; rewrite Z.ltb_lt; lia]);
    cbn [sg] in *;
    match goal with |- context [if ?b then _ else _] => destruct b eqn:E end;
    cbn [flt sg]; (split; [auto|split; rewrite Z.ltb_lt; lia]).
Qed.

Lemma fmax_main x y : ~ is_nan x -> ~ is_nan y ->
  (fmax x y = x \/ fmax x y = y) /\ ~ lt_ext (fmax x y) x /\ ~ lt_ext (fmax x y) y.
Proof.
  intros NX NY. rewrite <- !flt_iff.
  unfold fmax. rewrite <- isnan_iff in NX, NY.
  destruct (isnan x); [tauto|]. destruct (isnan y); [tauto|].
  destruct x as [s|s|s n], y as [t|t|t m]; cbn [is_nan feq flt inf ninf] in *;
    try (destruct s); try (destruct t); cbn [Bool.eqb andb negb];
    try (split; [auto|split; discriminate]);
    try (destruct (Z.ltb_spec (sg s n) (sg t m)));
    try (cbn [flt]; split; [auto|split; try discriminate; rewrite Z.ltb_lt; lia]);
    cbn [sg] in *;
    match goal with |- context [if ?b then _ else _] => destruct b eqn:E end;
    cbn [flt sg]; (split; [auto|split; rewrite Z.ltb_lt; lia]).
Qed.

Lemma fminmax_nan x y b : fmin x (Nan b) = x /\ fmax x (Nan b) = x
  /\ (~ is_nan y -> fmin (Nan b) y = y /\ fmax (Nan b) y = y).
Proof.
  split; [reflexivity|]. split; [reflexivity|]. intros H.
  unfold fmin, fmax. rewrite <- isnan_iff in H. destruct (isnan y); [tauto|].
  split; reflexivity.
Qed.

Lemma fdim_main f s n t m : 1 <= prec f -> 0 <= lo f -> 0 <= n -> 0 <= m ->
  fdim f (Fin s n) (Fin t m) =
    if sg t m <? sg s n then mk f false (sg s n - sg t m) 1 else Fin false 0.
Proof.
  intros P L Hn Hm. unfold fdim. rewrite !isnan_fin. unfold inf, ninf. rewrite !feq_inf.
  unfold flt. destruct (Z.ltb_spec (sg t m) (sg s n)) as [H|H]; [|reflexivity].
  unfold fsub, fneg, fadd.
  replace (sg s n + sg (negb t) m) with (sg s n - sg t m) by (destruct s, t; cbn [sg negb]; lia).
  destruct (Z.eqb_spec (sg s n - sg t m) 0); [lia|].
  rewrite Z.abs_eq by lia. f_equal. lia.
Qed.

(** ** Tolerant equality *)

Lemma equal_refl u f x : ~ is_nan x -> equal_to u f x x = true.
Proof.
  intros N. unfold equal_to. rewrite <- isnan_iff in N. unfold isnan in N.
  destruct (feq x x); [reflexivity|]. destruct N. reflexivity.
Qed.

Lemma fabs_mk f s t a b : 0 <= lo f -> 0 <= a -> 0 < b ->
  fabs (mk f s a b) = fabs (mk f t a b).
Proof.
  intros L Ha Hb. unfold mk.
  assert (N : 0 <= round_q f a b).
  { unfold round_q. assert (K := p2pos (exq f a b) ltac:(unfold exq; lia)).
    assert (Q : 0 <= a / (b * 2 ^ exq f a b)) by (apply Z.div_pos; nia).
    unfold rne. destruct (_ <? _); [nia|]. destruct (_ <? _); [nia|]. destruct (Z.even _); nia. }
  destruct (2 ^ hi f <=? round_q f a b).
  - destruct s, t; reflexivity.
  - rewrite !fabs_fin by exact N. reflexivity.
Qed.

Lemma equal_sym u f s n t m : 0 <= lo f -> 0 <= n -> 0 <= m ->
  equal_to u f (Fin s n) (Fin t m) = equal_to u f (Fin t m) (Fin s n).
Proof.
  intros L Hn Hm. unfold equal_to, feq. rewrite (Z.eqb_sym (sg s n)).
  destruct (Z.eqb_spec (sg t m) (sg s n)) as [E|E]; [reflexivity|]. cbn [orb].
  rewrite !fabs_fin by assumption. unfold max3. rewrite !max2_fin.
  rewrite (Z.max_comm n m). f_equal.
  unfold fsub, fneg, fadd.
  replace (sg s n + sg (negb t) m) with (sg s n - sg t m) by (destruct s, t; cbn [sg negb]; lia).
  replace (sg t m + sg (negb s) n) with (sg t m - sg s n) by (destruct s, t; cbn [sg negb]; lia).
  destruct (Z.eqb_spec (sg s n - sg t m) 0); [lia|].
  destruct (Z.eqb_spec (sg t m - sg s n) 0); [lia|].
  replace (Z.abs (sg s n - sg t m)) with (Z.abs (sg t m - sg s n)) by lia.
  apply fabs_mk; lia.
Qed.
