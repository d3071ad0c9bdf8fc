(** Correctness of the rounding functions of sprout/math. *)
From Coq Require Import List Arith ZArith Bool Lia.
From Verif Require Import Base BitModel FltModel FltSpec FltProof.
Import ListNotations.
Open Scope Z_scope.

Lemma wid_um : wid um = 64. Proof. reflexivity. Qed.
Lemma tmax_um : tmax um = 2 ^ 64 - 1. Proof. reflexivity. Qed.
Lemma tmin_um : tmin um = 0. Proof. reflexivity. Qed.

Section R.
  Variable u : Z.
  Variable f c : fmt.
  Hypothesis I : ieee u f.
  Hypothesis J : ieee u c.
  Hypothesis SB : sub_fmt f c.
  Variable ne : bool.

  Notation one := (one u).

  Lemma op : 0 < one. Proof. eapply one_pos, I. Qed.

  Lemma up n : repr f n -> repr c n.
  Proof. apply repr_sub; auto; destruct I as (?&?&?&?&?&?&?); lia. Qed.

  Lemma cast_up s n : repr f n -> fcast c (Fin s n) = Fin s n.
  Proof.
    intros R. apply mk_exact1; [eapply ip, J|eapply FltProof.il, J|]. apply up, R.
  Qed.

  Lemma cast_down s n : repr f n -> fcast f (Fin s n) = Fin s n.
  Proof.
    intros R. apply mk_exact1; [eapply ip, I|eapply FltProof.il, I|]. exact R.
  Qed.

  (** ** The test against the largest uintmax_t *)

  Definition lim (p : Z) : Z := if 64 <=? p then (2 ^ 64 - 1) * one else 2 ^ 64 * one.

  Lemma above_um s n : 0 <= n -> above u f um (Fin s n) = negb s && (lim (prec f) <? n).
  Proof.
    intros Hn. unfold above. rewrite tmax_um, (of_int_max u f I) by lia.
    unfold flt. assert (O := op).
    replace (if 64 <=? prec f then (2 ^ 64 - 1) * FltModel.one u else 2 ^ 64 * FltModel.one u)
      with (lim (prec f)) by reflexivity.
    assert (0 <= lim (prec f)) by (unfold lim; destruct (64 <=? prec f); nia).
    destruct s; cbn [sg negb andb]; [|reflexivity]. lia.
  Qed.

  Lemma above_both s n : 0 <= n ->
    above u f um (Fin s n) || above u f um (fneg (Fin s n)) = (lim (prec f) <? n).
  Proof.
    intros Hn. cbn [fneg]. rewrite !above_um by exact Hn.
    destruct s; cbn [negb andb orb]; [reflexivity|]. apply orb_false_r.
  Qed.

  (** An integral magnitude above 2^63 at least is far above the precision: with fewer than 64
      bits a number of at least 2^64 is an integer. *)
  Lemma big_integral n : repr f n -> 2 ^ prec f * one <= n -> n mod one = 0.
  Proof.
    intros R Hb. assert (O := op).
    assert (U := iu u f I). assert (P := ip u f I). assert (L := FltProof.il u f I).
    destruct R as (H & m & k & Hm & Hk & ->).
    assert (Pk := p2pos k ltac:(lia)).
    assert (u <= k).
    { destruct (Z_le_gt_dec u k) as [|G]; [assumption|exfalso].
      pose proof (p2le k u ltac:(lia)). fold one in *. unfold FltModel.one in *. nia. }
    unfold FltModel.one. rewrite (p2split u k) by lia.
    replace (m * (2 ^ u * 2 ^ (k - u))) with (m * 2 ^ (k - u) * 2 ^ u) by ring.
    apply Z.mod_mul. unfold FltModel.one in *. lia.
  Qed.

  (** In the domain of the functions: less than 2^64, or (with no error for large numbers)
      anything above 2^64. *)
  Definition dom (n : Z) : Prop := n < 2 ^ 64 * one \/ (ne = true /\ 2 ^ 64 * one < n).

  Hypothesis P64 : prec f <= 64.

  Lemma dom_in n : repr f n -> n < 2 ^ 64 * one -> (lim (prec f) <? n) = false.
  Proof.
    intros R Hn. assert (O := op). apply Z.ltb_ge. unfold lim.
    destruct (Z.leb_spec 64 (prec f)) as [Hp|Hp]; [|lia].
    destruct (Z_lt_ge_dec ((2 ^ 64 - 1) * one) n) as [G|G]; [exfalso|lia].
    assert (E : n mod one = 0).
    { assert (U := iu u f I). assert (P := ip u f I). assert (L := FltProof.il u f I).
      destruct (repr_div f n P L R) as (m & E).
      assert (Hlog : u + 63 <= Z.log2 n).
      { apply Z.log2_le_pow2; [nia|]. rewrite Z.pow_add_r by lia. fold one. nia. }
      set (k := Z.max _ _) in E. assert (Hk : u <= k) by lia.
      rewrite E. rewrite (p2split u k) by lia. fold one.
      replace (m * (one * 2 ^ (k - u))) with (m * 2 ^ (k - u) * one) by ring.
      apply Z.mod_mul. lia. }
    pose proof (Z.div_mod n one ltac:(lia)) as DM. rewrite E, Z.add_0_r in DM.
    assert (A : n / one < 2 ^ 64) by (apply Z.div_lt_upper_bound; lia).
    assert (B : 2 ^ 64 - 1 < n / one) by (apply (Z.mul_lt_mono_pos_r one); lia).
    lia.
  Qed.

  Lemma dom_out n : repr f n -> 2 ^ 64 * one < n ->
    (lim (prec f) <? n) = true /\ n mod one = 0.
  Proof.
    intros R Hn. assert (O := op). split.
    - apply Z.ltb_lt. unfold lim. destruct (64 <=? prec f); lia.
    - apply big_integral; [exact R|]. pose proof (p2le (prec f) 64).
      assert (0 <= prec f) by (destruct I; lia). nia.
  Qed.

  Lemma to_um n : 0 <= n < 2 ^ 64 * one -> to_int u um (Fin false n) = Ok (n / one).
  Proof.
    intros H. assert (O := op). unfold to_int. cbn [sg]. rewrite tmax_um, tmin_um.
    assert (0 <= n / one) by (apply Z.div_pos; lia).
    assert (n / one < 2 ^ 64) by (apply Z.div_lt_upper_bound; lia).
    replace ((0 <=? n / one) && (n / one <=? 2 ^ 64 - 1)) with true; [reflexivity|].
    symmetry. apply andb_true_iff. lia.
  Qed.

  (** ** The frame *)

  Lemma feq_inf s n b : feq (Fin s n) (Inf b) = false.
  Proof. reflexivity. Qed.

  Lemma rounding_in impl s n m : repr f n -> 0 < n < 2 ^ 64 * one ->
    impl (Fin s n) = Ok (Fin s m) -> repr f m ->
    rounding u ne f c impl (Fin s n) = Ok (Some (Fin s m)).
  Proof.
    intros R Hn E Rm. unfold rounding. rewrite isnan_fin, feq_zero.
    unfold inf, ninf. rewrite !feq_inf.
    destruct (Z.eqb_spec n 0); [lia|].
    rewrite above_both, dom_in by (auto; lia).
    rewrite cast_up by exact R. rewrite E. cbn [bind].
    rewrite cast_down by exact Rm. reflexivity.
  Qed.

  Lemma rounding_out impl s n : repr f n -> ne = true -> 2 ^ 64 * one < n ->
    rounding u ne f c impl (Fin s n) = Ok (Some (Fin s n)).
  Proof.
    intros R E Hn. assert (O := op). unfold rounding. rewrite isnan_fin, feq_zero.
    unfold inf, ninf. rewrite !feq_inf.
    destruct (Z.eqb_spec n 0); [lia|].
    rewrite above_both by lia. rewrite (proj1 (dom_out n R Hn)), E. reflexivity.
  Qed.

  Lemma rounding_zero impl s : rounding u ne f c impl (Fin s 0) = Ok (Some (Fin s 0)).
  Proof. unfold rounding. rewrite isnan_fin, feq_zero. reflexivity. Qed.

  (** ** The tolerant comparison *)

  Lemma equal_to_trunc s n : repr c n -> 0 < n -> clear_of u c n ->
    equal_to u c (Fin s n) (Fin s (n / one * one)) = (n mod one =? 0).
  Proof.
    intros R Hn C. assert (O := op).
    pose proof (Z.div_mod n one ltac:(lia)) as D.
    pose proof (Z.mod_pos_bound n one O) as B.
    assert (T0 : 0 <= n / one * one) by (assert (0 <= n / one) by (apply Z.div_pos; lia); nia).
    unfold equal_to.
    destruct (Z.eqb_spec (n mod one) 0) as [E|E].
    - replace (feq _ _) with true; [reflexivity|]. symmetry. unfold feq.
      apply Z.eqb_eq. destruct s; cbn [sg]; lia.
    - replace (feq _ _) with false.
      2: { symmetry. unfold feq. apply Z.eqb_neq. destruct s; cbn [sg]; lia. }
      cbn [orb].
      rewrite (fsub_same u c J) by
        (try lia; replace (Z.abs (n - n / one * one)) with (n mod one) by lia;
         apply repr_frac; auto).
      destruct (Z.eqb_spec n (n / one * one)); [lia|].
      replace (n <? n / one * one) with false by lia.
      rewrite !fabs_fin by lia. unfold max3, f1. rewrite !max2_fin.
      replace (Z.max (Z.max n (n / one * one)) one) with (Z.max n one) by lia.
      assert (RM : repr c (Z.max n one)).
      { destruct (Z.max_spec n one) as [(_ & ->)|(_ & ->)]; [apply repr_one; auto|auto]. }
      destruct (eps_mul u c J (Z.max n one) RM ltac:(unfold FltModel.one in *; lia)) as (-> & EM).
      destruct C as [C|C]; [unfold FltModel.one in *; lia|]. fold one in C.
      unfold fle, flt, feq. cbn [sg].
      replace (Z.abs (n - n / one * one)) with (n mod one) by lia.
      assert (Pp := p2pos (prec c - 1) ltac:(destruct J; lia)).
      set (M := Z.max n one) in *. set (Q := M / 2 ^ (prec c - 1)) in *.
      assert (Q < n mod one) by nia.
      destruct (Z.ltb_spec (n mod one) Q); [lia|].
      destruct (Z.eqb_spec (n mod one) Q); [lia|reflexivity].
  Qed.

  Lemma tr_of_int n : repr f n -> 0 < n -> of_int u c (n / one) = Fin false (n / one * one).
  Proof.
    intros R Hn. assert (O := op). apply (of_int_exact u c J).
    - apply Z.div_pos; lia.
    - apply repr_trunc; auto. apply up, R.
  Qed.

  Lemma one_add s n : repr f n -> 0 < n -> n mod one <> 0 ->
    fadd c (Fin s (n / one * one)) (Fin s one) = Fin s ((n / one + 1) * one).
  Proof.
    intros R Hn E. assert (O := op).
    assert (0 <= n / one) by (apply Z.div_pos; lia).
    replace ((n / one + 1) * one) with (n / one * one + one) by ring.
    apply (fadd_same u c J); try nia.
    replace (n / one * one + one) with ((n / one + 1) * one) by ring.
    apply repr_next; auto. apply up, R.
  Qed.

  Lemma flt_fin_zero s n : 0 < n -> flt (Fin s n) zero = s.
  Proof.
    intros H. rewrite flt_zero by lia. destruct (Z.eqb_spec n 0); [lia|].
    destruct s; reflexivity.
  Qed.

  Lemma fneg_fin s n : fneg (Fin s n) = Fin (negb s) n.
  Proof. reflexivity. Qed.

  (** ** floor, ceil, round, trunc *)

  Lemma neg_div_exact n : n mod one = 0 -> - n / one = - (n / one).
  Proof. intros. apply Z.div_opp_l_z; auto. pose proof op; lia. Qed.

  Lemma neg_div_frac n : n mod one <> 0 -> - n / one = - (n / one + 1).
  Proof. intros. rewrite Z.div_opp_l_nz; auto; [lia|]. pose proof op; lia. Qed.

  Lemma floor_main s n : repr f n -> dom n -> (s = true -> clear_of u c n) ->
    exists m, floor u ne f c (Fin s n) = Ok (Some (Fin s m)) /\ repr f m
      /\ sg s m = sg s n / one * one.
  Proof.
    intros R D C. assert (O := op).
    pose proof (repr_range f n R (FltProof.il u f I)) as Rg.
    destruct (Z.eq_dec n 0) as [->|Hn0].
    { exists 0. split; [apply rounding_zero|]. split; [exact R|].
      destruct s; cbn [sg]; reflexivity. }
    destruct D as [D|(E & D)].
    - assert (Hn : 0 < n) by lia.
      destruct s.
      + exists (if n mod one =? 0 then n / one * one else (n / one + 1) * one).
        split; [|split].
        * apply rounding_in; auto.
          -- unfold floor_impl. rewrite flt_fin_zero, fneg_fin by exact Hn. cbn [negb].
             rewrite to_um by lia. cbn [bind]. rewrite tr_of_int, fneg_fin by auto. cbn [negb].
             unfold floor_impl_1. rewrite equal_to_trunc by (auto using up).
             destruct (Z.eqb_spec (n mod one) 0) as [Z0|Z0]; [reflexivity|].
             unfold fsub, f1. rewrite fneg_fin. cbn [negb]. rewrite one_add by auto. reflexivity.
          -- destruct (Z.eqb_spec (n mod one) 0) as [Z0|Z0];
               [apply repr_trunc|apply repr_next]; auto.
        * destruct (Z.eqb_spec (n mod one) 0) as [Z0|Z0];
               [apply repr_trunc|apply repr_next]; auto.
        * cbn [sg]. destruct (Z.eqb_spec (n mod one) 0) as [Z0|Z0].
          -- rewrite neg_div_exact by exact Z0. ring.
          -- rewrite neg_div_frac by exact Z0. ring.
      + exists (n / one * one). split; [|split; [apply repr_trunc; auto|reflexivity]].
        apply rounding_in; auto; [|apply repr_trunc; auto].
        unfold floor_impl. rewrite flt_fin_zero by exact Hn.
        rewrite to_um by lia. cbn [bind]. rewrite tr_of_int by auto. reflexivity.
    - exists n. split; [apply rounding_out; auto|]. split; [exact R|].
      destruct (dom_out n R D) as (_ & Z0).
      pose proof (Z.div_mod n one ltac:(lia)).
      destruct s; cbn [sg]; [rewrite neg_div_exact by exact Z0|]; lia.
  Qed.

  Lemma ceil_main s n : repr f n -> dom n -> (s = false -> clear_of u c n) ->
    exists m, ceil u ne f c (Fin s n) = Ok (Some (Fin s m)) /\ repr f m
      /\ sg s m = - (- sg s n / one * one).
  Proof.
    intros R D C. assert (O := op).
    pose proof (repr_range f n R (FltProof.il u f I)) as Rg.
    destruct (Z.eq_dec n 0) as [->|Hn0].
    { exists 0. split; [apply rounding_zero|]. split; [exact R|].
      destruct s; cbn [sg]; reflexivity. }
    destruct D as [D|(E & D)].
    - assert (Hn : 0 < n) by lia.
      destruct s.
      + exists (n / one * one). split; [|split; [apply repr_trunc; auto|]].
        * apply rounding_in; auto; [|apply repr_trunc; auto].
          unfold ceil_impl. rewrite flt_fin_zero, fneg_fin by exact Hn. cbn [negb].
          rewrite to_um by lia. cbn [bind]. rewrite tr_of_int, fneg_fin by auto. reflexivity.
        * cbn [sg]. rewrite Z.opp_involutive. reflexivity.
      + exists (if n mod one =? 0 then n / one * one else (n / one + 1) * one).
        split; [|split].
        * apply rounding_in; auto.
          -- unfold ceil_impl. rewrite flt_fin_zero by exact Hn.
             rewrite to_um by lia. cbn [bind]. rewrite tr_of_int by auto.
             unfold ceil_impl_1. rewrite equal_to_trunc by (auto using up).
             destruct (Z.eqb_spec (n mod one) 0) as [Z0|Z0]; [reflexivity|].
             unfold f1. rewrite one_add by auto. reflexivity.
          -- destruct (Z.eqb_spec (n mod one) 0) as [Z0|Z0];
               [apply repr_trunc|apply repr_next]; auto.
        * destruct (Z.eqb_spec (n mod one) 0) as [Z0|Z0];
               [apply repr_trunc|apply repr_next]; auto.
        * cbn [sg]. destruct (Z.eqb_spec (n mod one) 0) as [Z0|Z0].
          -- rewrite neg_div_exact by exact Z0. ring.
          -- rewrite neg_div_frac by exact Z0. ring.
    - exists n. split; [apply rounding_out; auto|]. split; [exact R|].
      destruct (dom_out n R D) as (_ & Z0).
      pose proof (Z.div_mod n one ltac:(lia)).
      destruct s; cbn [sg]; rewrite ?Z.opp_involutive, ?neg_div_exact by exact Z0; lia.
  Qed.

  Lemma round_main s n : repr f n -> dom n ->
    exists m, round u ne f c (Fin s n) = Ok (Some (Fin s m)) /\ repr f m
      /\ (exists z, m = z * one) /\ 2 * Z.abs (m - n) <= one /\ (2 * Z.abs (m - n) = one -> n < m).
  Proof.
    intros R D. assert (O := op).
    assert (U1 : 1 <= u) by (unfold ieee in I; lia).
    pose proof (repr_range f n R (FltProof.il u f I)) as Rg.
    destruct (Z.eq_dec n 0) as [->|Hn0].
    { exists 0. split; [apply rounding_zero|]. split; [exact R|].
      split; [exists 0; lia|]. lia. }
    assert (Hh : 2 * 2 ^ (u - 1) = one).
    { unfold FltModel.one. rewrite <- Z.pow_succ_r by lia. f_equal. lia. }
    destruct D as [D|(E & D)].
    - assert (Hn : 0 < n) by lia.
      pose proof (Z.div_mod n one ltac:(lia)) as DM.
      pose proof (Z.mod_pos_bound n one O) as B.
      assert (T0 : 0 <= n / one) by (apply Z.div_pos; lia).
      assert (RF : repr c (n mod one)) by (apply repr_frac; auto using up).
      set (m := if n mod one <? 2 ^ (u - 1) then n / one * one else (n / one + 1) * one).
      assert (Rm : repr f m).
      { unfold m. destruct (Z.ltb_spec (n mod one) (2 ^ (u - 1))).
        - apply repr_trunc; auto.
        - apply repr_next; auto. pose proof (p2pos (u - 1)). lia. }
      exists m. split; [|split; [exact Rm|split]].
      + apply rounding_in; auto. unfold round_impl.
        rewrite flt_fin_zero by exact Hn.
        assert (FS : forall t, fsub c (Fin t n) (Fin t (n / one * one))
                      = if n mod one =? 0 then Fin false 0 else Fin t (n mod one)).
        { intros t. rewrite (fsub_same u c J) by
            (try nia; replace (Z.abs (n - n / one * one)) with (n mod one) by lia; auto).
          destruct (Z.eqb_spec n (n / one * one)), (Z.eqb_spec (n mod one) 0); try lia;
            try reflexivity.
          replace (n <? n / one * one) with false by lia.
          rewrite xorb_false_r. f_equal. lia. }
        assert (FS' : fsub c (Fin true (n / one * one)) (Fin true n)
                      = if n mod one =? 0 then Fin false 0 else Fin false (n mod one)).
        { rewrite (fsub_same u c J) by
            (try nia; replace (Z.abs (n / one * one - n)) with (n mod one) by lia; auto).
          destruct (Z.eqb_spec (n / one * one) n), (Z.eqb_spec (n mod one) 0); try lia;
            try reflexivity.
          replace (n / one * one <? n) with true by lia.
          cbn [xorb]. f_equal. lia. }
        assert (Ph := p2pos (u - 1) ltac:(lia)).
        destruct s.
        * rewrite fneg_fin. cbn [negb]. rewrite to_um by lia. cbn [bind].
          rewrite tr_of_int, fneg_fin by auto. cbn [negb].
          unfold round_impl_nagative. rewrite FS'. unfold m, half, flt, f1.
          destruct (Z.eqb_spec (n mod one) 0) as [Z0|Z0]; cbn [sg].
          -- rewrite Z0. destruct (0 <? 2 ^ (u - 1)) eqn:T; [reflexivity|lia].
          -- destruct (Z.ltb_spec (n mod one) (2 ^ (u - 1))); [reflexivity|].
             unfold fsub. rewrite fneg_fin. cbn [negb]. rewrite one_add by auto. reflexivity.
        * rewrite to_um by lia. cbn [bind].
          rewrite tr_of_int by auto.
          unfold round_impl_positive. rewrite FS. unfold m, half, flt, f1.
          destruct (Z.eqb_spec (n mod one) 0) as [Z0|Z0]; cbn [sg].
          -- rewrite Z0. destruct (0 <? 2 ^ (u - 1)) eqn:T; [reflexivity|lia].
          -- destruct (Z.ltb_spec (n mod one) (2 ^ (u - 1))); [reflexivity|].
             rewrite one_add by auto. reflexivity.
      + unfold m. destruct (n mod one <? 2 ^ (u - 1)); eexists; reflexivity.
      + unfold m. destruct (Z.ltb_spec (n mod one) (2 ^ (u - 1))); nia.
    - exists n. split; [apply rounding_out; auto|]. split; [exact R|].
      destruct (dom_out n R D) as (_ & Z0).
      pose proof (Z.div_mod n one ltac:(lia)).
      split; [exists (n / one); lia|]. lia.
  Qed.

  Lemma trunc_main s n : repr f n -> dom n ->
    trunc u ne f (Fin s n) = Ok (Some (Fin s (n / one * one))).
  Proof.
    intros R D. assert (O := op).
    pose proof (repr_range f n R (FltProof.il u f I)) as Rg.
    unfold trunc. rewrite isnan_fin, feq_zero.
    unfold inf, ninf. rewrite !feq_inf.
    destruct (Z.eqb_spec n 0) as [->|Hn0].
    { rewrite Z.div_0_l by lia. reflexivity. }
    rewrite above_both by lia.
    destruct D as [D|(E & D)].
    - assert (Hn : 0 < n) by lia. rewrite dom_in by auto.
      assert (OI : of_int u f (n / one) = Fin false (n / one * one)).
      { apply (of_int_exact u f I); [apply Z.div_pos; lia|apply repr_trunc; auto]. }
      rewrite flt_fin_zero by exact Hn.
      destruct s; rewrite ?fneg_fin; cbn [negb]; rewrite to_um by lia; cbn [bind];
        rewrite OI; reflexivity.
    - destruct (dom_out n R D) as (-> & Z0). rewrite E.
      pose proof (Z.div_mod n one ltac:(lia)). do 3 f_equal. lia.
  Qed.

End R.
