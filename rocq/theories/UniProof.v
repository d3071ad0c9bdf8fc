(** Proofs about the uniform integer distributions. *)
From Coq Require Import List Arith ZArith Bool Lia.
From Verif Require Import Base BitModel BitSpec BitProof RatModel LcgProof3 UniModel UniSpec.
Import ListNotations.
Open Scope Z_scope.

Lemma conv_u t z : sgn t = false -> conv t z = z mod 2 ^ wid t.
Proof. intros U. unfold conv. rewrite U. reflexivity. Qed.
Lemma arith_u t z : sgn t = false -> 0 <= z < 2 ^ wid t -> arith t z = Ok z.
Proof. intros U Z1. rewrite uarith by exact U. rewrite Z.mod_small by exact Z1. reflexivity. Qed.
Lemma arith_s t z : is_val t z -> arith t z = Ok z.
Proof.
  intros V. unfold arith. destruct (sgn t) eqn:S.
  - unfold is_val in V. rewrite S in V. unfold tmin, tmax. rewrite S.
    replace (- 2 ^ (wid t - 1) <=? z) with true by (symmetry; apply Z.leb_le; lia).
    replace (z <=? 2 ^ (wid t - 1) - 1) with true by (symmetry; apply Z.leb_le; lia). reflexivity.
  - rewrite conv_id by exact V. reflexivity.
Qed.
Lemma conv_small t z : sgn t = false -> 0 <= z < 2 ^ wid t -> conv t z = z.
Proof. intros U Z1. rewrite conv_u by exact U. apply Z.mod_small, Z1. Qed.
Lemma cdiv_u t x y : sgn t = false -> 0 <= x -> 0 < y -> cdiv t x y = Ok (x / y).
Proof.
  intros U X Y. unfold cdiv. rewrite U. replace (y =? 0) with false by (symmetry; apply Z.eqb_neq; lia). cbn [andb orb].
  rewrite Z.quot_div_nonneg by lia. reflexivity.
Qed.
Lemma crem_u t x y : sgn t = false -> 0 <= x -> 0 < y -> crem t x y = Ok (x mod y).
Proof.
  intros U X Y. unfold crem. rewrite U. replace (y =? 0) with false by (symmetry; apply Z.eqb_neq; lia). cbn [andb orb].
  rewrite Z.rem_mod_nonneg by lia. reflexivity.
Qed.

Lemma sub_ok t x y : is_val t x -> is_val t y -> subtract t x y = Ok ((x - y) mod 2 ^ wid t).
Proof.
  intros X Y. unfold subtract. pose proof (half_pos t) as H. pose proof (wid_half t) as Hw.
  destruct (sgn t) eqn:S.
  2:{ rewrite uarith by exact S. reflexivity. }
  unfold is_val in X, Y. rewrite S in X, Y.
  destruct (Z.leb_spec 0 y) as [P|P].
  - rewrite uarith, !conv_u by reflexivity. rewrite wid_uns. rewrite <- Zminus_mod. reflexivity.
  - destruct (Z.leb_spec 0 x) as [Q|Q].
    + rewrite arith_s by (unfold is_val; rewrite S; lia). cbn [bind].
      rewrite arith_s by (unfold is_val; rewrite S; lia). cbn [bind].
      rewrite !uarith, !conv_u by reflexivity. rewrite wid_uns. cbn [bind]. rewrite uarith by reflexivity. rewrite wid_uns.
      rewrite <- Zplus_mod, Zplus_mod_idemp_l. do 2 f_equal. lia.
    + rewrite arith_s by (unfold is_val; rewrite S; lia). cbn [bind]. rewrite conv_u by reflexivity. rewrite wid_uns. reflexivity.
Qed.
Lemma sub_small t x y : is_val t x -> is_val t y -> y <= x -> subtract t x y = Ok (x - y) /\ 0 <= x - y < 2 ^ wid t.
Proof.
  intros X Y L. rewrite sub_ok by assumption.
  assert (0 <= x - y < 2 ^ wid t). { pose proof (wid_half t). unfold is_val in X, Y. destruct (sgn t); lia. }
  rewrite Z.mod_small by assumption. split; [reflexivity|assumption].
Qed.
Lemma add_ok t1 t2 x y : sgn t1 = false -> 0 <= x < 2 ^ wid t1 -> is_val t2 y -> is_val t2 (x + y) ->
  wid t2 <= wid t1 \/ 0 <= y -> add_to t1 t2 x y = Ok (x + y).
Proof.
  intros U X Y Z1 C. unfold add_to. pose proof (half_pos t2) as H. pose proof (wid_half t2) as Hw.
  destruct (sgn t2) eqn:S.
  2:{ rewrite uarith, conv_u by exact S. rewrite Zplus_mod_idemp_l. rewrite Z.mod_small; [reflexivity|]. unfold is_val in Z1. rewrite S in Z1. exact Z1. }
  assert (Y' := Y). assert (Z' := Z1). unfold is_val in Y', Z'. rewrite S in Y', Z'.
  destruct (Z.leb_spec 0 y) as [P|P].
  - rewrite conv_id by (unfold is_val; rewrite S; lia). apply arith_s, Z1.
  - destruct C as [C|C]; [|lia].
    pose proof (wid_ge t2). pose proof (pow_mono (wid t2) (wid t1) ltac:(lia)).
    rewrite arith_s by (unfold is_val; rewrite S; lia). cbn [bind].
    rewrite arith_s by (unfold is_val; rewrite S; lia). cbn [bind].
    rewrite (conv_small t1 (- (y + 1))) by (try assumption; lia).
    destruct (Z.leb_spec (- (y + 1)) x) as [Q|Q].
    + rewrite arith_u by (try assumption; lia). cbn [bind]. unfold arith. rewrite U. cbn [bind].
      rewrite conv_conv by exact C. f_equal. replace (x - - (y + 1) - 1) with (x + y) by lia. apply conv_id, Z1.
    + rewrite conv_id by (unfold is_val; rewrite S; lia). apply arith_s, Z1.
Qed.

Lemma div_succ n m : 0 < m -> (n + 1) / m = if n mod m =? m - 1 then n / m + 1 else n / m.
Proof.
  intros M. pose proof (Z.div_mod n m ltac:(lia)) as D. pose proof (Z.mod_pos_bound n m M) as P.
  destruct (Z.eqb_spec (n mod m) (m - 1)) as [E|E]; symmetry.
  - apply Z.div_unique with (r := 0); [left; lia|]. lia.
  - apply Z.div_unique with (r := n mod m + 1); [left; lia|]. lia.
Qed.
(** the quotient (n + 1) / (m + 1), computed without overflow if n is the greatest value *)
Lemma quot_ok t n m : sgn t = false -> 0 < m < n -> n < 2 ^ wid t ->
  (b1 <- arith t (m + 1) ;;
   if n =? tmax t then q <- cdiv t n b1 ;; r <- crem t n b1 ;; if r =? m then arith t (q + 1) else Ok q
   else r1 <- arith t (n + 1) ;; cdiv t r1 b1) = Ok ((n + 1) / (m + 1)).
Proof.
  intros U M N. rewrite arith_u by (try assumption; lia). cbn [bind]. unfold tmax. rewrite U.
  destruct (Z.eqb_spec n (2 ^ wid t - 1)) as [E|E].
  - rewrite cdiv_u, crem_u by (try assumption; lia). cbn [bind]. rewrite div_succ by lia. replace (m + 1 - 1) with m by lia.
    destruct (n mod (m + 1) =? m); [|reflexivity]. apply arith_u; [exact U|].
    pose proof (Z.div_lt n (m + 1) ltac:(lia) ltac:(lia)). pose proof (Z.div_pos n (m + 1) ltac:(lia) ltac:(lia)). lia.
  - rewrite arith_u by (try assumption; lia). cbn [bind]. apply cdiv_u; [exact U|lia|lia].
Qed.

Section Draw.
  Variable St : Type.
  Variable step : St -> res (Z * St).
  Variable b : ity.
  Variables bmin bmax : Z.
  Variable I : St -> Prop.
  Hypothesis E : engine_ok St step bmin bmax b I.
  Let B := uns b.
  Let be := beta bmin bmax.
  Notation draws1 := (draws1 St step bmin bmax).
  Notation draws := (draws St step bmin bmax).
  Notation number := (number bmin bmax).
  Notation uniform := (uniform St step bmin bmax).
  Notation draw_off := (draw_off St step b bmin).

  Lemma be_ge : 2 <= be.
  Proof. pose proof E as (_ & _ & L & _). unfold be, beta. lia. Qed.
  Lemma be_eq : be = bmax - bmin + 1. Proof. reflexivity. Qed.
  Lemma brange_ok : subtract b bmax bmin = Ok (be - 1) /\ be <= 2 ^ wid b.
  Proof.
    pose proof E as (A & C & L & _). destruct (sub_small b bmax bmin C A ltac:(lia)) as [H H']. rewrite H.
    unfold be, beta. split; [f_equal|]; lia.
  Qed.
  Lemma draw_ok s : I s -> draw_off s = Fuel \/ exists d s', draws1 s d s' /\ draw_off s = Ok (d, s') /\ I s'.
  Proof.
    pose proof E as (A & C & L & H). intros Is. destruct (H s Is) as [Hs|(e & s' & Hs & R & I')].
    { left. unfold UniModel.draw_off. rewrite Hs. reflexivity. }
    right. exists (e - bmin), s'. split; [|split; [|exact I']].
    - split; [fold be; unfold be, beta; lia|]. rewrite Hs. do 2 f_equal. lia.
    - unfold UniModel.draw_off. rewrite Hs. cbn [bind fst snd].
      assert (Ve : is_val b e) by (unfold is_val in *; destruct (sgn b); lia).
      rewrite conv_id by exact Ve. destruct (sub_small b e bmin Ve A ltac:(lia)) as [-> _]. reflexivity.
  Qed.
  Lemma draw_det s d s' : draws1 s d s' -> draw_off s = Ok (d, s').
  Proof.
    intros [D H]. fold be in D. pose proof E as (A & C & L & _). unfold UniModel.draw_off. rewrite H. cbn [bind fst snd]. unfold be, beta in D.
    assert (Ve : is_val b (bmin + d)) by (unfold is_val in *; destruct (sgn b); lia).
    rewrite conv_id by exact Ve. destruct (sub_small b (bmin + d) bmin Ve A ltac:(lia)) as [-> _]. cbn [bind]. do 2 f_equal. lia.
  Qed.
  Lemma draw_inv s d s' : I s -> draws1 s d s' -> I s'.
  Proof. intros Is H. pose proof (draw_det s d s' H) as Q. destruct (draw_ok s Is) as [H1|(d1 & s1 & _ & H1 & I1)]; rewrite Q in H1; [discriminate|]. inversion H1; subst. exact I1. Qed.
  Lemma draws_inv s ds s' : draws s ds s' -> I s -> I s'.
  Proof. induction 1 as [|s d s1 ds s2 H _ IH]; intros Is; [exact Is|]. apply IH. eapply draw_inv; eassumption. Qed.
  Lemma draws_snoc s ds s1 d s2 : draws s ds s1 -> draws1 s1 d s2 -> draws s (ds ++ [d]) s2.
  Proof. induction 1 as [s|s d0 s0 ds s3 H _ IH]; intros K; [eapply draws_cons; [exact K|constructor]|]. eapply draws_cons; [exact H|apply IH, K]. Qed.
  Lemma number_snoc ds d : number (ds ++ [d]) = number ds + be ^ Z.of_nat (length ds) * d.
  Proof.
    induction ds as [|x ds IH]; [cbn [app UniSpec.number length]; rewrite Z.pow_0_r; lia|].
    cbn [app UniSpec.number length]. rewrite IH. fold be. rewrite Nat2Z.inj_succ, Z.pow_succ_r by lia. ring.
  Qed.
  Lemma number_range ds : Forall (fun d => 0 <= d < be) ds -> 0 <= number ds < be ^ Z.of_nat (length ds).
  Proof.
    pose proof be_ge as G. induction 1 as [|d ds D _ IH]; [cbn [UniSpec.number length]; rewrite Z.pow_0_r; lia|].
    cbn [UniSpec.number length]. fold be. rewrite Nat2Z.inj_succ, Z.pow_succ_r by lia. nia.
  Qed.
  Lemma draws_digits s ds s' : draws s ds s' -> Forall (fun d => 0 <= d < be) ds.
  Proof. induction 1 as [|s d s1 ds s2 [H _] _ IH]; constructor; assumption. Qed.
  Lemma draws_range s ds s' : draws s ds s' -> 0 <= number ds < be ^ Z.of_nat (length ds).
  Proof. intros H. eapply number_range, draws_digits, H. Qed.
  Lemma be_pow_pos j : 0 <= j -> 0 < be ^ j.
  Proof. pose proof be_ge. intros J. apply Z.pow_pos_nonneg; lia. Qed.

  Lemma uniform_range_lemma cst n s v s' : uniform cst n s v s' -> 0 <= v < n.
  Proof.
    pose proof be_ge as G.
    induction 1 as [s|s s1 d s2 H1 H2 H3|n s d s1 H1 H2 H3|n s d s1 v s2 H1 H2 H3 _ IH|n s ds s1 H1 H2 H3|n s ds s1 i s2 m H1 H2 H3 H4 _ IH H5|n s ds s1 i s2 m v s3 H1 H2 H3 H4 _ _ H5 _ IH];
      try exact IH.
    - lia.
    - destruct H3 as [H3 _]. exact H3.
    - split; [|exact H3]. destruct H2 as [H2 _]. fold be in H1, H2 |- *. apply Z.div_pos; [lia|]. apply Z.div_str_pos. lia.
    - pose proof (draws_range _ _ _ H2) as Q. unfold be in Q. lia.
    - pose proof (draws_range _ _ _ H2) as Q. unfold be in Q. nia.
  Qed.

  (** [P] of the outcome, which is not UB *)
  Definition out {A : Type} (P : A -> Prop) (r : res A) : Prop :=
    match r with Ok a => P a | UB => False | Fuel => True end.

  Section At.
    Variable cst : bool.
    Variable t : ity.
    Let R := uns t.
    Variables lo hi : Z.
    Hypothesis Vlo : is_val t lo.
    Hypothesis Vhi : is_val t hi.
    Hypothesis Le : lo < hi.
    Let n := hi - lo + 1.

    Lemma n_le : 2 <= n <= 2 ^ wid t.
    Proof. destruct (sub_small t hi lo Vhi Vlo ltac:(lia)) as [_ H]. unfold n. lia. Qed.
    Lemma in_t v : 0 <= v < n -> is_val t (v + lo).
    Proof. unfold n. intros H. unfold is_val in *. destruct (sgn t); lia. Qed.

    Section Wide.
      Hypothesis W : be < n.
      Notation dg := (digits St step b bmin t (n - 1) (be - 1)).
      Lemma limit_ok : wide_limit t (n - 1) (be - 1) = Ok (n / be).
      Proof.
        pose proof be_ge as G. pose proof n_le as N. unfold wide_limit. rewrite (conv_small (uns t) (be - 1)) by (try reflexivity; rewrite ?wid_uns; lia).
        rewrite (quot_ok (uns t) (n - 1) (be - 1)) by (try reflexivity; rewrite ?wid_uns; lia).
        f_equal. f_equal; lia.
      Qed.
      Lemma wid_max : wid t <= wid (Ity false (Nat.max (lg b) (lg t))).
      Proof.
        unfold wid, bytes. cbn [lg]. apply Z.mul_le_mono_nonneg_l; [lia|]. apply Z.pow_le_mono_r; lia.
      Qed.
      (** one turn of the inner loop *)
      Lemma digits_step k res m s d s1 : 1 <= m -> 0 <= res < m -> m < n -> m <= n / be -> draws1 s d s1 ->
        dg (S k) (n / be) res m s =
        if m * be =? n then Ok (true, res + m * d, m, s1) else dg k (n / be) (res + m * d) (m * be) s1.
      Proof.
        intros M1 Rr Mn Ml D. pose proof be_ge as G. pose proof n_le as N. pose proof D as [Dr _]. fold be in Dr.
        assert (Mb : m * be <= n). { pose proof (Z.mul_div_le n be ltac:(lia)). nia. }
        pose proof wid_max as WM. pose proof (wid_ge t). pose proof (pow_mono (wid t) (wid (Ity false (Nat.max (lg b) (lg t)))) ltac:(lia)) as PM.
        cbn [digits]. replace (m <=? n / be) with true by (symmetry; apply Z.leb_le; lia).
        rewrite (draw_det _ _ _ D). cbn [bind fst snd].
        rewrite arith_u by (try reflexivity; nia). cbn [bind].
        rewrite (conv_small (uns t) (d * m)) by (try reflexivity; rewrite ?wid_uns; nia).
        rewrite arith_u by (try reflexivity; rewrite ?wid_uns; nia). cbn [bind].
        rewrite (conv_small (uns t) (be - 1)) by (try reflexivity; rewrite ?wid_uns; lia).
        rewrite arith_u by (try reflexivity; rewrite ?wid_uns; nia). cbn [bind].
        rewrite arith_u by (try reflexivity; rewrite ?wid_uns; lia). cbn [bind].
        rewrite arith_u by (try reflexivity; rewrite ?wid_uns; lia). cbn [bind].
        replace (m * (be - 1) =? n - 1 - m + 1) with (m * be =? n) by (apply eq_iff_eq_true; rewrite !Z.eqb_eq; nia).
        replace (res + d * m) with (res + m * d) by ring.
        destruct (Z.eqb_spec (m * be) n) as [Q|Q]; [reflexivity|].
        rewrite arith_u by (try reflexivity; rewrite ?wid_uns; lia). cbn [bind].
        replace (be - 1 + 1) with be by lia.
        rewrite arith_u by (try reflexivity; rewrite ?wid_uns; lia). cbn [bind]. reflexivity.
      Qed.
      Lemma digits_stop k res m s : n / be < m -> dg (S k) (n / be) res m s = Ok (false, res, m, s).
      Proof. intros H. cbn [digits]. replace (m <=? n / be) with false by (symmetry; apply Z.leb_gt; lia). reflexivity. Qed.

      Lemma digits_sound s0 k : forall ds s, draws s0 ds s -> I s -> be ^ Z.of_nat (length ds) < n ->
        out (fun o => let '(ret, res, m, s') := o in I s' /\ exists ds, draws s0 ds s' /\ res = number ds /\
               if ret : bool then be ^ Z.of_nat (length ds) = n
               else m = be ^ Z.of_nat (length ds) /\ m < n < m * be)
            (dg k (n / be) (number ds) (be ^ Z.of_nat (length ds)) s).
      Proof.
        pose proof be_ge as G.
        induction k as [|k IH]; intros ds s D Is L; [exact Logic.I|].
        pose proof (draws_range _ _ _ D) as Nr. pose proof (be_pow_pos (Z.of_nat (length ds)) ltac:(lia)) as P.
        set (m := be ^ Z.of_nat (length ds)) in *.
        destruct (Z_le_gt_dec m (n / be)) as [Lm|Lm].
        - destruct (draw_ok s Is) as [F|(d & s1 & D1 & _ & I1)].
          { cbn [digits]. replace (m <=? n / be) with true by (symmetry; apply Z.leb_le; lia). rewrite F. exact Logic.I. }
          rewrite (digits_step k (number ds) m s d s1) by (try assumption; lia).
          pose proof (draws_snoc _ _ _ _ _ D D1) as D2. unfold m. rewrite <- number_snoc.
          assert (Len : be ^ Z.of_nat (length (ds ++ [d])) = m * be).
          { rewrite app_length. cbn [length]. rewrite Nat.add_1_r, Nat2Z.inj_succ, Z.pow_succ_r by lia. unfold m. ring. }
          fold m. destruct (Z.eqb_spec (m * be) n) as [Q|Q].
          + cbn [out]. split; [exact I1|]. exists (ds ++ [d]). split; [exact D2|]. split; [reflexivity|]. lia.
          + rewrite <- Len. apply IH; [exact D2|exact I1|].
            rewrite Len. pose proof (Z.mul_div_le n be ltac:(lia)). nia.
        - rewrite digits_stop by lia. cbn [out]. split; [exact Is|]. exists ds. split; [exact D|]. split; [reflexivity|]. split; [reflexivity|].
          split; [exact L|]. apply Z.gt_lt in Lm. pose proof (Z.div_mod n be ltac:(lia)). pose proof (Z.mod_pos_bound n be ltac:(lia)). nia.
      Qed.

      Lemma digits_exact : forall ds k res m s s1, draws s ds s1 -> 1 <= m -> 0 <= res < m -> m < n ->
        m * be ^ Z.of_nat (length ds) <= n < m * be ^ Z.of_nat (length ds) * be -> (length ds < k)%nat ->
        exists m', dg k (n / be) res m s =
          Ok (m * be ^ Z.of_nat (length ds) =? n, res + m * number ds, m', s1) /\
          (m * be ^ Z.of_nat (length ds) <> n -> m' = m * be ^ Z.of_nat (length ds)).
      Proof.
        pose proof be_ge as G.
        induction ds as [|d ds IH]; intros k res m s s1 D M1 Rr Mn Ln Lk; (destruct k as [|k]; [cbn [length] in Lk; lia|]).
        - inversion D; subst. cbn [length UniSpec.number] in *. rewrite Z.pow_0_r in *. exists m.
          rewrite digits_stop by (apply Z.div_lt_upper_bound; lia).
          replace (m * 1 =? n) with false by (symmetry; apply Z.eqb_neq; lia). split; [do 2 f_equal; f_equal; f_equal; lia|lia].
        - inversion D as [|s0 d0 s2 ds0 s3 D1 D2]; subst. cbn [length] in *. rewrite Nat2Z.inj_succ, Z.pow_succ_r in * by lia.
          pose proof (be_pow_pos (Z.of_nat (length ds)) ltac:(lia)) as P. set (p := be ^ Z.of_nat (length ds)) in *.
          assert (Mb : m * be <= n) by nia.
          pose proof D1 as [Dr _]. fold be in Dr.
          rewrite (digits_step k res m s d s2) by (try assumption; try lia; apply Z.div_le_lower_bound; lia).
          destruct (Z.eqb_spec (m * be) n) as [Q|Q].
          + assert (Hp : p = 1) by nia.
            destruct ds as [|x ds]; [|exfalso; unfold p in Hp; cbn [length] in Hp; rewrite Nat2Z.inj_succ, Z.pow_succ_r in Hp by lia; pose proof (be_pow_pos (Z.of_nat (length ds)) ltac:(lia)); nia].
            inversion D2; subst. exists m. rewrite Hp. replace (m * (be * 1) =? n) with true by (symmetry; apply Z.eqb_eq; lia).
            cbn [UniSpec.number]. split; [do 2 f_equal; f_equal; f_equal; lia|nia].
          + destruct (IH k (res + m * d) (m * be) s2 s1 D2) as (m' & E1 & E2); [nia|nia|nia|fold p; nia|lia|].
            fold p in E1, E2. exists m'. rewrite E1. replace (m * be * p) with (m * (be * p)) in * by ring. split; [|exact E2].
            cbn [UniSpec.number]. fold be. do 2 f_equal. f_equal. f_equal. ring.
      Qed.

      Lemma wide_turn rec' k s ds s1 m i s2 : draws s ds s1 -> m = be ^ Z.of_nat (length ds) -> m < n < m * be ->
        dg (S k) (n / be) 0 1 s = Ok (false, number ds, m, s1) ->
        rec' R 0 ((n - 1) / m) s1 = Ok (i, s2) -> 0 <= i < (n - 1) / m + 1 ->
        wide St step b bmin t lo (n - 1) (be - 1) rec' (S k) s =
        if n <=? number ds + m * i then wide St step b bmin t lo (n - 1) (be - 1) rec' k s2 else Ok (number ds + m * i + lo, s2).
      Proof.
        intros D Em Mn Dg Rc Ui. pose proof be_ge as G. pose proof n_le as N. pose proof (wid_ge t) as Wg.
        pose proof (draws_range _ _ _ D) as Nr. rewrite <- Em in Nr. pose proof (be_pow_pos (Z.of_nat (length ds)) ltac:(lia)) as Pm. rewrite <- Em in Pm.
        cbn [wide]. rewrite limit_ok. cbn [bind]. rewrite Dg. cbn [bind].
        rewrite cdiv_u by (try reflexivity; lia). cbn [bind].
        assert (Qb : 0 <= (n - 1) / m < be).
        { split; [apply Z.div_pos; lia|]. apply Z.div_lt_upper_bound; [lia|]. lia. }
        assert (Qn : (n - 1) / m < 2 ^ wid t). { apply Z.div_lt_upper_bound; [lia|]. nia. }
        rewrite (conv_small (uns t) ((n - 1) / m)) by (try reflexivity; rewrite ?wid_uns; lia).
        fold R. rewrite Rc. cbn [bind fst snd].
        pose proof (Z.mul_div_le (n - 1) m ltac:(lia)) as Md.
        unfold R. rewrite cdiv_u by (try reflexivity; unfold tmax, uns; cbn [sgn]; pose proof (pow_pos (wid (Ity false (lg t))) ltac:(change (wid (Ity false (lg t))) with (wid t); lia)); lia).
        cbn [bind].
        assert (Mx : tmax (uns t) / m <? i = false).
        { apply Z.ltb_ge. unfold tmax, uns. cbn [sgn]. change (wid (Ity false (lg t))) with (wid t).
          apply Z.div_le_lower_bound; [lia|]. nia. }
        rewrite Mx.
        assert (Mi : 0 <= i * m <= n - 1) by nia.
        rewrite arith_u by (try reflexivity; rewrite ?wid_uns; nia). cbn [bind].
        rewrite uarith by reflexivity. rewrite wid_uns. cbn [bind].
        assert (T : ((number ds + i * m) mod 2 ^ wid t <? i * m) || (n - 1 <? (number ds + i * m) mod 2 ^ wid t) = (n <=? number ds + m * i)).
        { pose proof (pow_pos (wid t) ltac:(lia)). destruct (Z_lt_ge_dec (number ds + i * m) (2 ^ wid t)) as [H1|H1].
          - rewrite Z.mod_small by lia. apply eq_iff_eq_true. rewrite orb_true_iff, !Z.ltb_lt, Z.leb_le. nia.
          - replace ((number ds + i * m) mod 2 ^ wid t) with (number ds + i * m - 2 ^ wid t).
            + apply eq_iff_eq_true. rewrite orb_true_iff, !Z.ltb_lt, Z.leb_le. nia.
            + apply Z.mod_unique with (q := 1); [left; nia|ring]. }
        rewrite T. destruct (Z.leb_spec n (number ds + m * i)) as [A|A]; [reflexivity|].
        rewrite Z.mod_small by nia.
        rewrite add_ok; [cbn [bind]; do 2 f_equal; ring|reflexivity|rewrite wid_uns; nia|exact Vlo|apply in_t; nia|left; rewrite wid_uns; lia].
      Qed.

      Variable rec : ity -> Z -> Z -> St -> res (Z * St).
      Hypothesis Pow : lo = 0 \/ forall j, 0 <= j -> be ^ j <> n.
      Hypothesis Rec : forall q s, 0 <= q < be -> I s -> out (fun o => uniform cst (q + 1) s (fst o) (snd o) /\ I (snd o)) (rec R 0 q s).

      Lemma wide_sound k : forall s, I s ->
        out (fun o => uniform cst n s (fst o - lo) (snd o) /\ I (snd o)) (wide St step b bmin t lo (n - 1) (be - 1) rec k s).
      Proof.
        pose proof be_ge as G. pose proof n_le as N.
        induction k as [|k IH]; intros s Is; [exact Logic.I|].
        pose proof (digits_sound s (S k) [] s (draws_nil _ _ _ _ s) Is) as DS. cbn [length UniSpec.number] in DS. rewrite Z.pow_0_r in DS. specialize (DS ltac:(lia)).
        destruct (dg (S k) (n / be) 0 1 s) as [[[[ret r0] m] s1]| |] eqn:Dg; cbn [out] in DS;
          [|contradiction|cbn [wide]; rewrite limit_ok; cbn [bind]; rewrite Dg; exact Logic.I].
        destruct DS as (I1 & ds & D & -> & Q). pose proof (draws_range _ _ _ D) as Nr. destruct ret.
        - cbn [wide]. rewrite limit_ok. cbn [bind]. rewrite Dg. cbn [bind].
          cbn [out fst snd]. split; [|exact I1]. destruct Pow as [Z0|Np]; [|exfalso; eapply (Np (Z.of_nat (length ds))); [lia|exact Q]].
          rewrite conv_id by (replace (number ds) with (number ds + lo) by lia; apply in_t; lia).
          rewrite Z0, Z.sub_0_r. apply uniform_power; assumption.
        - destruct Q as (Em & Mn). pose proof (be_pow_pos (Z.of_nat (length ds)) ltac:(lia)) as Pm. rewrite <- Em in Pm.
          assert (Qb : 0 <= (n - 1) / m < be).
          { split; [apply Z.div_pos; lia|]. apply Z.div_lt_upper_bound; [lia|]. lia. }
          specialize (Rec ((n - 1) / m) s1 Qb I1).
          destruct (rec R 0 ((n - 1) / m) s1) as [[i s2]| |] eqn:Rc; cbn [out fst snd] in Rec; [|contradiction|].
          2:{ cbn [wide]. rewrite limit_ok. cbn [bind]. rewrite Dg. cbn [bind]. rewrite cdiv_u by (try reflexivity; lia). cbn [bind].
              assert (Qn : (n - 1) / m < 2 ^ wid t) by lia.
              rewrite (conv_small (uns t) ((n - 1) / m)) by (try reflexivity; rewrite ?wid_uns; lia). fold R. rewrite Rc. exact Logic.I. }
          destruct Rec as [U I2]. pose proof (uniform_range_lemma _ _ _ _ _ U) as Ui.
          rewrite (wide_turn rec k s ds s1 m i s2 D Em Mn Dg Rc Ui). destruct (Z.leb_spec n (number ds + m * i)) as [A|A].
          + specialize (IH s2 I2). destruct (wide St step b bmin t lo (n - 1) (be - 1) rec k s2) as [[x s3]| |]; cbn [out fst snd] in *; [|contradiction|exact Logic.I].
            destruct IH as [U2 I3]. split; [|exact I3]. eapply uniform_wide_retry; [exact W|exact D|exact Em|exact Mn|exact U|exact A|exact U2].
          + cbn [out fst snd]. split; [|exact I2]. replace (number ds + m * i + lo - lo) with (number ds + m * i) by ring.
            eapply uniform_wide; [exact W|exact D|exact Em|exact Mn|exact U|exact A].
      Qed.
    End Wide.

    Section Bucket.
      Hypothesis W : n < be.
      Hypothesis C : wid t <= wid b \/ 0 <= lo.
      Lemma size_ok : bucket_size b (n - 1) (be - 1) = Ok (be / n).
      Proof.
        pose proof n_le as N. pose proof brange_ok as [_ Bb]. unfold bucket_size.
        rewrite (conv_small (uns b) (n - 1)) by (try reflexivity; rewrite ?wid_uns; lia).
        rewrite (quot_ok (uns b) (be - 1) (n - 1)) by (try reflexivity; rewrite ?wid_uns; lia).
        f_equal. f_equal; lia.
      Qed.
      Lemma size_pos : 1 <= be / n.
      Proof. pose proof n_le. assert (0 < be / n) by (apply Z.div_str_pos; lia). lia. Qed.
      Lemma bucket_step k s d s1 : draws1 s d s1 ->
        bucket St step b bmin t lo (n - 1) (S k) (be / n) s =
        if d / (be / n) <? n then Ok (d / (be / n) + lo, s1) else bucket St step b bmin t lo (n - 1) k (be / n) s1.
      Proof.
        intros D. pose proof n_le as N. pose proof brange_ok as [_ Bb]. pose proof size_pos as Sp. pose proof D as [Dr _]. fold be in Dr.
        cbn [bucket]. rewrite (draw_det _ _ _ D). cbn [bind fst snd].
        rewrite cdiv_u by (try reflexivity; lia). cbn [bind].
        rewrite (conv_small (uns b) (n - 1)) by (try reflexivity; rewrite ?wid_uns; lia).
        replace (d / (be / n) <=? n - 1) with (d / (be / n) <? n) by (apply eq_iff_eq_true; rewrite Z.ltb_lt, Z.leb_le; lia).
        destruct (Z.ltb_spec (d / (be / n)) n) as [H|H]; [|reflexivity].
        assert (0 <= d / (be / n)) by (apply Z.div_pos; lia).
        rewrite add_ok; [reflexivity|reflexivity|rewrite wid_uns; lia|exact Vlo|apply in_t; lia|rewrite wid_uns; exact C].
      Qed.
      Lemma bucket_sound k : forall s, I s ->
        out (fun o => uniform cst n s (fst o - lo) (snd o) /\ I (snd o)) (bucket St step b bmin t lo (n - 1) k (be / n) s).
      Proof.
        pose proof n_le as N. induction k as [|k IH]; intros s Is; [exact Logic.I|].
        destruct (draw_ok s Is) as [F|(d & s1 & D & _ & I1)]; [cbn [bucket]; rewrite F; exact Logic.I|]. rewrite (bucket_step k s d s1 D).
        destruct (Z.ltb_spec (d / (be / n)) n) as [H|H].
        - cbn [out fst snd]. split; [|exact I1]. replace (d / (be / n) + lo - lo) with (d / (be / n)) by ring.
          apply uniform_bucket; [fold be; lia|exact D|exact H].
        - specialize (IH s1 I1). destruct (bucket St step b bmin t lo (n - 1) k (be / n) s1) as [[x s2]| |]; cbn [out fst snd] in *; [|contradiction|exact Logic.I].
          destruct IH as [U I2]. split; [|exact I2]. eapply uniform_retry; [fold be; lia|exact D|exact H|exact U].
      Qed.
    End Bucket.
  End At.

  Notation uni_good := (uni_good b bmin bmax).

  Lemma val_u t z : 0 <= z < 2 ^ wid t -> is_val (uns t) z.
  Proof. intros H. apply uns_val. exact H. Qed.

  Lemma uniform_int_sound cst k : forall r t lo hi s, uni_good t lo hi -> I s ->
    out (fun o => uniform cst (hi - lo + 1) s (fst o - lo) (snd o) /\ I (snd o)) (uniform_int St step b bmin bmax cst r k t lo hi s).
  Proof.
    pose proof be_ge as G. pose proof brange_ok as [Hb Bb].
    induction r as [|r IH]; intros t lo hi s (Vlo & Vhi & Le & C1 & C2) Is; [exact Logic.I|].
    cbn [uniform_int]. destruct (sub_small t hi lo Vhi Vlo Le) as [-> Rr]. rewrite Hb. cbn [bind].
    destruct (Z.eqb_spec (hi - lo) 0) as [Z0|Z0].
    { cbn [out fst snd]. split; [|exact Is]. replace (hi - lo + 1) with 1 by lia. replace (lo - lo) with 0 by lia. constructor. }
    assert (Lt : lo < hi) by lia.
    destruct (Z.eqb_spec (be - 1) (hi - lo)) as [Q|Q].
    { assert (Hs : (if cst then Ok s else o <- draw_off s ;; Ok (snd o)) = Fuel \/
          exists s1, (if cst then Ok s else o <- draw_off s ;; Ok (snd o)) = Ok s1 /\ I s1 /\ (if cst then s1 = s else exists d, draws1 s d s1)).
      { destruct cst; [right; exists s; auto|]. destruct (draw_ok s Is) as [F|(d & s1 & D & E1 & I1)]; [left; rewrite F; reflexivity|]. right. exists s1. rewrite E1. cbn [bind snd]. split; [reflexivity|]. split; [exact I1|]. exists d. exact D. }
      destruct Hs as [F|(s1 & -> & I1 & S1)]; [rewrite F; exact Logic.I|]. cbn [bind]. destruct (draw_ok s1 I1) as [F|(d & s2 & D & E2 & I2)]; [rewrite F; exact Logic.I|]. rewrite E2. cbn [bind fst snd].
      pose proof D as [Dr _]. fold be in Dr.
      rewrite add_ok; [cbn [bind out fst snd]|reflexivity|rewrite wid_uns; lia|exact Vlo|apply (in_t t lo hi Vlo Vhi); lia|rewrite wid_uns; lia].
      split; [|exact I2]. replace (hi - lo + 1) with be by lia. replace (d + lo - lo) with d by ring. eapply uniform_same; [fold be; lia|exact S1|exact D]. }
    destruct (Z.ltb_spec (be - 1) (hi - lo)) as [W|W].
    - pose proof (wide_sound cst t lo hi Vlo Vhi Lt) as H. replace (hi - lo + 1 - 1) with (hi - lo) in H by lia.
      apply H; [lia| | |exact Is].
      + destruct C2 as [C2|[C2|C2]]; [left; exact C2|lia|right; exact C2].
      + clear H. intros q s1 Hq Is1. specialize (IH (uns t) 0 q s1).
        assert (Gd : uni_good (uns t) 0 q).
        { split; [apply val_0|]. split; [apply val_u; lia|]. split; [lia|]. split; [left; lia|left; reflexivity]. }
        specialize (IH Gd Is1). rewrite Z.sub_0_r in IH.
        destruct (uniform_int St step b bmin bmax cst r k (uns t) 0 q s1) as [[x s2]| |]; cbn [out fst snd] in *; [|contradiction|exact Logic.I].
        rewrite Z.sub_0_r in IH. exact IH.
    - pose proof (size_ok t lo hi Vlo Vhi Lt) as H. pose proof (bucket_sound cst t lo hi Vlo Vhi Lt) as H'.
      replace (hi - lo + 1 - 1) with (hi - lo) in H, H' by lia.
      rewrite H by lia. cbn [bind]. apply H'; [lia| |exact Is]. destruct C1 as [C1|[C1|C1]]; [right; exact C1|left; exact C1|lia].
  Qed.

  Lemma number_0 ds : 0 + 1 * number ds = number ds. Proof. lia. Qed.

  Lemma uniform_int_complete cst n s v s' : uniform cst n s v s' -> exists k0, forall kk k, (k0 <= kk)%nat -> (k0 <= k)%nat ->
    forall r t lo hi, uni_good t lo hi -> hi - lo + 1 = n ->
    if n <=? be then uniform_int St step b bmin bmax cst (S r) k t lo hi s = Ok (v + lo, s')
    else wide St step b bmin t lo (n - 1) (be - 1) (uniform_int St step b bmin bmax cst (S r) kk) k s = Ok (v + lo, s').
  Proof.
    pose proof be_ge as G. pose proof brange_ok as [Hb Bb].
    assert (Bk : forall n r k t lo hi s, uni_good t lo hi -> hi - lo + 1 = n -> 1 < n < be ->
      uniform_int St step b bmin bmax cst (S r) k t lo hi s = bucket St step b bmin t lo (n - 1) k (be / n) s).
    { clear n s v s'. intros n r k t lo hi s (Vlo & Vhi & Le & C1 & C2) N L. cbn [uniform_int].
      destruct (sub_small t hi lo Vhi Vlo Le) as [-> _]. rewrite Hb. cbn [bind]. replace (hi - lo) with (n - 1) by lia.
      replace (n - 1 =? 0) with false by (symmetry; apply Z.eqb_neq; lia). replace (be - 1 =? n - 1) with false by (symmetry; apply Z.eqb_neq; lia).
      replace (be - 1 <? n - 1) with false by (symmetry; apply Z.ltb_ge; lia).
      pose proof (size_ok t lo hi Vlo Vhi ltac:(lia)) as H. rewrite N in H. rewrite H by lia. reflexivity. }
    induction 1 as [s|s s1 d s2 H1 H2 H3|n s d s1 H1 H2 H3|n s d s1 v s2 H1 H2 H3 _ (k0 & IH)|n s ds s1 H1 H2 H3|n s ds s1 i s2 m H1 H2 H3 H4 U1 (k0 & IH) H5|n s ds s1 i s2 m v s3 H1 H2 H3 H4 U1 (k0 & IH) H5 _ (k1 & IH2)].
    - exists O. intros kk k _ _ r t lo hi (Vlo & Vhi & Le & C1 & C2) N. replace (1 <=? be) with true by (symmetry; apply Z.leb_le; lia).
      cbn [uniform_int]. destruct (sub_small t hi lo Vhi Vlo Le) as [-> _]. rewrite Hb. cbn [bind].
      replace (hi - lo =? 0) with true by (symmetry; apply Z.eqb_eq; lia). reflexivity.
    - exists O. intros kk k _ _ r t lo hi (Vlo & Vhi & Le & C1 & C2) N. fold be in N, H1 |- *. rewrite Z.leb_refl.
      cbn [uniform_int]. destruct (sub_small t hi lo Vhi Vlo Le) as [-> _]. rewrite Hb. cbn [bind].
      replace (hi - lo =? 0) with false by (symmetry; apply Z.eqb_neq; lia). replace (be - 1 =? hi - lo) with true by (symmetry; apply Z.eqb_eq; lia).
      assert (Hs : (if cst then Ok s else o <- draw_off s ;; Ok (snd o)) = Ok s1).
      { destruct cst; [subst; reflexivity|]. destruct H2 as [d' D]. rewrite (draw_det _ _ _ D). reflexivity. }
      rewrite Hs. cbn [bind]. rewrite (draw_det _ _ _ H3). cbn [bind fst snd]. pose proof H3 as [Dr _]. fold be in Dr.
      rewrite add_ok; [reflexivity|reflexivity|rewrite wid_uns; lia|exact Vlo|apply (in_t t lo hi Vlo Vhi); lia|rewrite wid_uns; lia].
    - exists 1%nat. intros kk k _ Lk r t lo hi Gd N. fold be in H1, H3 |- *. replace (n <=? be) with true by (symmetry; apply Z.leb_le; lia).
      rewrite (Bk n) by assumption. destruct k as [|k]; [lia|]. pose proof Gd as (Vlo & Vhi & Le & C1 & C2).
      pose proof (bucket_step t lo hi Vlo Vhi ltac:(lia)) as Bs. rewrite N in Bs. rewrite (Bs ltac:(lia) ltac:(lia) k s d s1 H2).
      replace (d / (be / n) <? n) with true by (symmetry; apply Z.ltb_lt; lia). reflexivity.
    - exists (S k0). intros kk k Lkk Lk r t lo hi Gd N. fold be in H1, H3. replace (n <=? be) with true by (symmetry; apply Z.leb_le; lia).
      rewrite (Bk n) by assumption. destruct k as [|k]; [lia|]. pose proof Gd as (Vlo & Vhi & Le & C1 & C2).
      pose proof (bucket_step t lo hi Vlo Vhi ltac:(lia)) as Bs. rewrite N in Bs. rewrite (Bs ltac:(lia) ltac:(lia) k s d s1 H2).
      replace (d / (be / n) <? n) with false by (symmetry; apply Z.ltb_ge; lia).
      specialize (IH kk k ltac:(lia) ltac:(lia) r t lo hi Gd N). replace (n <=? be) with true in IH by (symmetry; apply Z.leb_le; lia).
      rewrite (Bk n) in IH by assumption. exact IH.
    - exists (S (length ds)). intros kk k _ Lk r t lo hi Gd N. fold be in H1, H3. replace (n <=? be) with false by (symmetry; apply Z.leb_gt; lia).
      destruct k as [|k]; [lia|]. pose proof Gd as (Vlo & Vhi & Le & C1 & C2). assert (Lt : lo < hi) by lia.
      pose proof (limit_ok t lo hi Vlo Vhi Lt) as Li. rewrite N in Li. cbn [wide]. rewrite Li by lia. cbn [bind].
      pose proof (digits_exact t lo hi Vlo Vhi Lt) as De. rewrite N in De.
      destruct (De ltac:(lia) ds (S k) 0 1 s s1 H2) as (m' & E1 & _); [lia|lia|lia|rewrite H3; nia|lia|].
      rewrite E1. rewrite Z.mul_1_l, H3, Z.eqb_refl. cbn [bind]. rewrite number_0.
      pose proof (draws_range _ _ _ H2) as Q. rewrite H3 in Q.
      assert (Z0 : lo = 0). { destruct C2 as [C2|[C2|C2]]; [exact C2|fold be in C2; lia|]. exfalso. apply (C2 (Z.of_nat (length ds)) ltac:(lia)). rewrite N. exact H3. }
      rewrite Z0, Z.add_0_r. rewrite conv_id; [reflexivity|]. rewrite <- (Z.add_0_r (number ds)), <- Z0. apply (in_t t lo hi Vlo Vhi). lia.
    - exists (S (Nat.max (length ds) k0)). intros kk k Lkk Lk r t lo hi Gd N. fold be in H1, H3, H4. replace (n <=? be) with false by (symmetry; apply Z.leb_gt; lia).
      destruct k as [|k]; [lia|]. pose proof Gd as (Vlo & Vhi & Le & C1 & C2). assert (Lt : lo < hi) by lia.
      pose proof (be_pow_pos (Z.of_nat (length ds)) ltac:(lia)) as Pm. rewrite <- H3 in Pm.
      pose proof (digits_exact t lo hi Vlo Vhi Lt) as De. rewrite N in De.
      destruct (De ltac:(lia) ds (S k) 0 1 s s1 H2) as (m' & E1 & E2); [lia|lia|lia|rewrite <- H3; lia|lia|].
      rewrite Z.mul_1_l, <- H3, number_0 in E1. rewrite Z.mul_1_l, <- H3 in E2. rewrite (E2 ltac:(lia)) in E1.
      replace (m =? n) with false in E1 by (symmetry; apply Z.eqb_neq; lia).
      assert (Qb : 0 <= (n - 1) / m < be).
      { split; [apply Z.div_pos; lia|]. apply Z.div_lt_upper_bound; lia. }
      specialize (IH kk kk ltac:(lia) ltac:(lia) r (uns t) 0 ((n - 1) / m)).
      replace ((n - 1) / m + 1 <=? be) with true in IH by (symmetry; apply Z.leb_le; lia).
      pose proof (n_le t lo hi Vlo Vhi Lt) as Nn.
      assert (Gd' : uni_good (uns t) 0 ((n - 1) / m)).
      { split; [apply val_0|]. split; [apply val_u; lia|]. split; [lia|]. split; [left; lia|left; reflexivity]. }
      specialize (IH Gd' ltac:(lia)). rewrite Z.add_0_r in IH.
      pose proof (wide_turn t lo hi Vlo Vhi Lt) as Wt. rewrite N in Wt.
      rewrite (Wt ltac:(lia) _ k s ds s1 m i s2 H2 H3 H4 E1 IH (uniform_range_lemma _ _ _ _ _ U1)).
      replace (n <=? number ds + m * i) with false by (symmetry; apply Z.leb_gt; lia). reflexivity.
    - exists (S (Nat.max (Nat.max (length ds) k0) k1)). intros kk k Lkk Lk r t lo hi Gd N. fold be in H1, H3, H4. replace (n <=? be) with false by (symmetry; apply Z.leb_gt; lia).
      destruct k as [|k]; [lia|]. pose proof Gd as (Vlo & Vhi & Le & C1 & C2). assert (Lt : lo < hi) by lia.
      pose proof (be_pow_pos (Z.of_nat (length ds)) ltac:(lia)) as Pm. rewrite <- H3 in Pm.
      pose proof (digits_exact t lo hi Vlo Vhi Lt) as De. rewrite N in De.
      destruct (De ltac:(lia) ds (S k) 0 1 s s1 H2) as (m' & E1 & E2); [lia|lia|lia|rewrite <- H3; lia|lia|].
      rewrite Z.mul_1_l, <- H3, number_0 in E1. rewrite Z.mul_1_l, <- H3 in E2. rewrite (E2 ltac:(lia)) in E1.
      replace (m =? n) with false in E1 by (symmetry; apply Z.eqb_neq; lia).
      assert (Qb : 0 <= (n - 1) / m < be).
      { split; [apply Z.div_pos; lia|]. apply Z.div_lt_upper_bound; lia. }
      specialize (IH kk kk ltac:(lia) ltac:(lia) r (uns t) 0 ((n - 1) / m)).
      replace ((n - 1) / m + 1 <=? be) with true in IH by (symmetry; apply Z.leb_le; lia).
      pose proof (n_le t lo hi Vlo Vhi Lt) as Nn.
      assert (Gd' : uni_good (uns t) 0 ((n - 1) / m)).
      { split; [apply val_0|]. split; [apply val_u; lia|]. split; [lia|]. split; [left; lia|left; reflexivity]. }
      specialize (IH Gd' ltac:(lia)). rewrite Z.add_0_r in IH.
      pose proof (wide_turn t lo hi Vlo Vhi Lt) as Wt. rewrite N in Wt.
      rewrite (Wt ltac:(lia) _ k s ds s1 m i s2 H2 H3 H4 E1 IH (uniform_range_lemma _ _ _ _ _ U1)).
      replace (n <=? number ds + m * i) with true by (symmetry; apply Z.leb_le; lia).
      specialize (IH2 kk k ltac:(lia) ltac:(lia) r t lo hi Gd N). replace (n <=? be) with false in IH2 by (symmetry; apply Z.leb_gt; lia). exact IH2.
  Qed.

  Lemma uniform_int_lemma cst t lo hi s x s' : uni_good t lo hi -> I s ->
    (exists r k, uniform_int St step b bmin bmax cst r k t lo hi s = Ok (x, s')) <-> uniform cst (hi - lo + 1) s (x - lo) s'.
  Proof.
    intros Gd Is. split.
    - intros (r & k & H). pose proof (uniform_int_sound cst k r t lo hi s Gd Is) as Q. rewrite H in Q. apply Q.
    - intros U. destruct (uniform_int_complete _ _ _ _ _ U) as (k0 & H). exists 2%nat, k0.
      specialize (H k0 k0 (le_n _) (le_n _)). pose proof brange_ok as [Hb Bb].
      pose proof (H O t lo hi Gd eq_refl) as H0. specialize (H 1%nat t lo hi Gd eq_refl).
      replace (x - lo + lo) with x in * by lia.
      destruct (Z.leb_spec (hi - lo + 1) be) as [L|L]; [exact H|]. clear H. revert H0. generalize 1%nat. intros r1 H. pose proof Gd as (Vlo & Vhi & Le & _).
      cbn [uniform_int]. destruct (sub_small t hi lo Vhi Vlo Le) as [-> _]. rewrite Hb. cbn [bind].
      replace (hi - lo + 1 - 1) with (hi - lo) in H by lia.
      replace (hi - lo =? 0) with false by (symmetry; apply Z.eqb_neq; pose proof be_ge; lia). replace (be - 1 =? hi - lo) with false by (symmetry; apply Z.eqb_neq; lia).
      replace (be - 1 <? hi - lo) with true by (symmetry; apply Z.ltb_lt; lia). exact H.
  Qed.
  Lemma uniform_int_range_lemma cst r k t lo hi s : uni_good t lo hi -> I s ->
    match uniform_int St step b bmin bmax cst r k t lo hi s with
    | Ok (x, s') => lo <= x <= hi /\ I s'
    | UB => False
    | Fuel => True
    end.
  Proof.
    intros Gd Is. pose proof (uniform_int_sound cst k r t lo hi s Gd Is) as Q.
    destruct (uniform_int St step b bmin bmax cst r k t lo hi s) as [[x s']| |]; cbn [out fst snd] in Q; [|exact Q|exact Q].
    destruct Q as [U I']. split; [|exact I']. pose proof (uniform_range_lemma _ _ _ _ _ U). lia.
  Qed.
End Draw.
