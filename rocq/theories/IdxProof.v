(** Proofs about index sequences. *)
From Coq Require Import List Arith Bool ZArith Lia ZifyBool.
From Verif Require Import Base IdxModel IdxSpec.
Import ListNotations.
Local Open Scope Z_scope.

Lemma map_res_ok {A B} (f : A -> res B) (g : A -> B) l : (forall x, In x l -> f x = Ok (g x)) ->
  map_res f l = Ok (map g l).
Proof.
  induction l as [|x t IH]; intros H; [reflexivity|]. cbn [map_res map].
  rewrite H by now left. cbn [bind]. rewrite IH by (intros y Hy; apply H; now right). reflexivity.
Qed.

Lemma progression_app first step n m :
  progression first step (n + m) = progression first step n ++ progression (first + Z.of_nat n * step) step m.
Proof.
  unfold progression. rewrite seq_app, map_app. f_equal. cbn [plus].
  replace (seq n m) with (map (fun i => (n + i)%nat) (seq 0 m)).
  - rewrite map_map. apply map_ext. intros i. lia.
  - clear. revert n. induction m as [|m IH]; intros n; [reflexivity|]. cbn [seq map]. f_equal; [lia|].
    rewrite <- seq_shift, map_map. rewrite <- (IH (Datatypes.S n)). apply map_ext. intros i. lia.
Qed.

Lemma progression_shift first step n a :
  map (fun i => i + a) (progression first step n) = progression (first + a) step n.
Proof. unfold progression. rewrite map_map. apply map_ext. intros i. lia. Qed.

Lemma in_progression first step n x : In x (progression first step n) ->
  exists i, (i < n)%nat /\ x = first + Z.of_nat i * step.
Proof.
  unfold progression. intros H. apply in_map_iff in H. destruct H as (i&E&Hi). apply in_seq in Hi. exists i.
  split; [lia|now symmetry].
Qed.

Section Range.
  Variables (M : Z) (sgn : bool).
  Hypothesis HM : 1 < M.

  Lemma to_signed_id x : - M <= x < M -> to_signed M x = x.
  Proof. intros H. unfold to_signed. rewrite Z.mod_small by lia. lia. Qed.

  Lemma to_unsigned_id x : 0 <= x < 2 * M -> to_unsigned M x = x.
  Proof. intros H. unfold to_unsigned. apply Z.mod_small. lia. Qed.

  Lemma to_signed_unsigned x : - M <= x < M -> to_signed M (to_unsigned M x) = x.
  Proof.
    intros H. unfold to_signed, to_unsigned. rewrite Zplus_mod_idemp_l. rewrite Z.mod_small by lia. lia.
  Qed.

  (** The conversions of the template arguments do no harm. *)
  Lemma add_next i x : value_of M sgn i -> value_of M sgn (i + x) -> - M < x < M ->
    op_T M sgn (i + to_T M sgn (to_unsigned M x)) = Ok (i + x).
  Proof.
    unfold value_of, op_T, to_T. destruct sgn; intros Hi Hix Hx.
    - rewrite to_signed_unsigned by lia. unfold chk, in_signed.
      replace ((- M <=? i + x) && (i + x <? M)) with true by lia. reflexivity.
    - f_equal. unfold to_unsigned. rewrite Zmod_mod, Zplus_mod_idemp_r. apply Z.mod_small. lia.
  Qed.

  Lemma to_T_id x : value_of M sgn x -> to_T M sgn (to_unsigned M x) = x.
  Proof.
    unfold value_of, to_T. destruct sgn; intros H.
    - apply to_signed_unsigned. lia.
    - unfold to_unsigned. rewrite Zmod_mod. apply Z.mod_small. lia.
  Qed.

  Variables (first step : Z).

  Lemma dispatch_ok : forall k d n, (n <= 2 ^ k)%nat -> (k < d)%nat ->
    (forall i, (i < n)%nat -> value_of M sgn (first + Z.of_nat i * step) /\ - M < Z.of_nat i * step < M) ->
    range_dispatch M sgn d first step (Z.of_nat n) = Ok (progression first step n).
  Proof.
    induction k as [|k IH]; intros d n Hn Hd Hv; (destruct d as [|d]; [lia|]); cbn [range_dispatch].
    - cbn [Nat.pow] in Hn. destruct n as [|[|n]]; [reflexivity| |lia].
      change (Z.of_nat 1 =? 0) with false. change (Z.of_nat 1 =? 1) with true. cbv iota.
      unfold progression. cbn [seq map Z.of_nat]. now rewrite Z.mul_0_l, Z.add_0_r.
    - destruct (Z.eqb_spec (Z.of_nat n) 0) as [E0|E0].
      { replace n with 0%nat by lia. reflexivity. }
      destruct (Z.eqb_spec (Z.of_nat n) 1) as [E1|E1].
      { replace n with 1%nat by lia. unfold progression. cbn [seq map Z.of_nat]. now rewrite Z.mul_0_l, Z.add_0_r. }
      cbn [Nat.pow] in Hn.
      assert (Hh : forall h, (h + h <= n)%nat -> (1 <= h)%nat -> (h < n)%nat ->
        map_res (fun i => op_T M sgn (i + to_T M sgn (to_unsigned M (Z.of_nat h * step)))) (progression first step h)
        = Ok (progression (first + Z.of_nat h * step) step h)).
      { intros h Hhh H1 H2. rewrite <- progression_shift. apply map_res_ok. intros x Hx.
        apply in_progression in Hx. destruct Hx as (i&Hi&->). apply add_next.
        - apply Hv. lia.
        - destruct (Hv (i + h)%nat ltac:(lia)) as [V _].
          replace (first + Z.of_nat i * step + Z.of_nat h * step) with (first + Z.of_nat (i + h) * step) by lia.
          exact V.
        - apply Hv. lia. }
      destruct (Nat.Even_or_Odd n) as [[h Eh]|[h Eh]].
      + assert (Ed : Z.of_nat n / 2 = Z.of_nat h) by (symmetry; apply Z.div_unique with 0; lia).
        assert (Em : Z.of_nat n mod 2 = 0) by (symmetry; apply Z.mod_unique with (Z.of_nat h); lia).
        rewrite Ed, Em. cbn [Z.eqb]. rewrite IH; [|lia|lia|intros i Hi; apply Hv; lia]. cbn [bind].
        unfold next_even. rewrite Hh by lia. cbn [bind]. f_equal. rewrite Eh.
        replace (2 * h)%nat with (h + h)%nat by lia. now rewrite progression_app.
      + assert (Ed : Z.of_nat n / 2 = Z.of_nat h) by (symmetry; apply Z.div_unique with 1; lia).
        assert (Em : Z.of_nat n mod 2 = 1) by (symmetry; apply Z.mod_unique with (Z.of_nat h); lia).
        rewrite Ed, Em. cbn [Z.eqb]. rewrite IH; [|lia|lia|intros i Hi; apply Hv; lia]. cbn [bind].
        unfold next_odd. rewrite Hh by lia. cbn [bind]. f_equal. rewrite Eh.
        replace (2 * h + 1)%nat with (h + (h + 1))%nat by lia. rewrite !progression_app. f_equal. f_equal.
        unfold progression. cbn [seq map]. f_equal.
        rewrite Z.mul_0_l, Z.add_0_r.
        replace (first + (Z.of_nat (h + (h + 1)) - 1) * step) with (first + Z.of_nat (2 * h) * step) by lia.
        rewrite to_T_id; [lia|]. apply Hv. lia.
  Qed.

  Variable last : Z.
  Hypothesis Hargs : range_args first last step.
  Hypothesis Hfirst : value_of M sgn first.
  Hypothesis Hlast : value_of M sgn last.
  Hypothesis Hdist : Z.abs (last - first) + Z.abs step <= M.

  Lemma count_ok : exists n, range_count M sgn first last step = Ok (Z.of_nat n)
    /\ counts first last step n.
  Proof.
    assert (S0 : step <> 0) by (unfold range_args in Hargs; lia).
    unfold range_count.
    assert (Ed : op_T M sgn (last - first) = Ok (if sgn then last - first else to_unsigned M (last - first))).
    { unfold op_T, chk, in_signed. destruct sgn; [|reflexivity].
      replace ((- M <=? last - first) && (last - first <? M)) with true by lia. reflexivity. }
    rewrite Ed. cbn [bind].
    assert (Es : to_signed M (if sgn then last - first else to_unsigned M (last - first)) = last - first).
    { destruct sgn; [apply to_signed_id|apply to_signed_unsigned]; lia. }
    remember (if 0 <? step then step - 1 else step + 1) as adj eqn:Eadj.
    assert (Hadj : (0 < step /\ adj = step - 1) \/ (step < 0 /\ adj = step + 1)).
    { rewrite Eadj. destruct (Z.ltb_spec 0 step); lia. }
    clear Eadj. assert (Ha : - M <= adj < M) by lia.
    assert (chk_ok : forall x, - M <= x < M -> chk M x = Ok x).
    { intros x Hx. unfold chk, in_signed. replace ((- M <=? x) && (x <? M)) with true by lia. reflexivity. }
    rewrite (chk_ok adj Ha). cbn [bind]. rewrite Es.
    rewrite chk_ok by (destruct Hargs as [H|[H|H]]; lia). cbn [bind].
    replace (step =? 0) with false by lia.
    assert (Q : exists q, Z.quot (last - first + adj) step = q /\ 0 <= q < M
      /\ q * Z.abs step <= Z.abs (last - first) + Z.abs step - 1 < q * Z.abs step + Z.abs step).
    { exists ((Z.abs (last - first) + Z.abs step - 1) / Z.abs step).
      pose proof (Z.div_mod (Z.abs (last - first) + Z.abs step - 1) (Z.abs step) ltac:(lia)) as D1.
      pose proof (Z.mod_pos_bound (Z.abs (last - first) + Z.abs step - 1) (Z.abs step) ltac:(lia)) as D2.
      split; [|split; [|lia]].
      - destruct Hadj as [[Hs ->]|[Hs ->]].
        + rewrite Z.quot_div_nonneg by (unfold range_args in Hargs; lia). f_equal; unfold range_args in Hargs; lia.
        + replace (last - first + (step + 1)) with (- (Z.abs (last - first) + Z.abs step - 1))
            by (unfold range_args in Hargs; lia).
          replace step with (- Z.abs step) at 2 by lia. rewrite Z.quot_opp_opp by lia.
          rewrite Z.quot_div_nonneg by lia. reflexivity.
      - split; [apply Z.div_pos; lia|]. apply Z.div_lt_upper_bound; [lia|]. nia. }
    destruct Q as (q&Eq&Hq&Hb). rewrite Eq. rewrite chk_ok by lia. cbn [bind].
    rewrite to_unsigned_id by lia. exists (Z.to_nat q). split; [f_equal; lia|].
    unfold range_args in Hargs. split; intros Hs i.
    - replace (Z.abs step) with step in Hb by lia. replace (Z.abs (last - first)) with (last - first) in Hb by lia.
      split; intros Hi.
      + assert (Z.of_nat i <= q - 1) by lia. nia.
      + assert (Z.of_nat i < q) by nia. lia.
    - replace (Z.abs step) with (- step) in Hb by lia.
      replace (Z.abs (last - first)) with (first - last) in Hb by lia.
      split; intros Hi.
      + assert (Z.of_nat i <= q - 1) by lia. nia.
      + assert (Z.of_nat i < q) by nia. lia.
  Qed.

  Lemma integer_range_lemma : exists n, counts first last step n
    /\ forall k d, (n <= 2 ^ k)%nat -> (k < d)%nat ->
       integer_range M sgn d first last step = Ok (progression first step n).
  Proof.
    destruct count_ok as (n&En&Cn). exists n. split; [exact Cn|]. intros k d Hk Hd. unfold integer_range.
    replace ((first <? last) && (0 <? step) || (last <? first) && (step <? 0) || (first =? last)) with true
      by (unfold range_args in Hargs; lia).
    rewrite En. cbn [bind]. apply (dispatch_ok k); [assumption|assumption|]. intros i Hi.
    unfold range_args in Hargs. destruct Cn as [C1 C2].
    destruct (Z.lt_total 0 step) as [Hs|[Hs|Hs]]; [|lia|].
    - apply (C1 Hs) in Hi. unfold value_of in *. destruct sgn; nia.
    - apply (C2 Hs) in Hi. unfold value_of in *. destruct sgn; nia.
  Qed.
End Range.

Lemma make_sequence_lemma M sgn n : 1 < M -> Z.of_nat n < M -> forall k d, (n <= 2 ^ k)%nat -> (k < d)%nat ->
  make_integer_sequence M sgn d (Z.of_nat n) = Ok (map Z.of_nat (seq 0 n)).
Proof.
  intros HM Hn k d Hk Hd. unfold make_integer_sequence, default_step. replace (0 <=? Z.of_nat n) with true by lia.
  destruct (integer_range_lemma M sgn HM 0 1 (Z.of_nat n)) as (m&Cm&Em).
  - unfold range_args. lia.
  - unfold value_of. destruct sgn; lia.
  - unfold value_of. destruct sgn; lia.
  - lia.
  - destruct Cm as [Cm _]. specialize (Cm ltac:(lia)).
    assert (m = n).
    { destruct (Nat.lt_total m n) as [H|[H|H]]; [|assumption|].
      - specialize (Cm m). lia.
      - specialize (Cm n). lia. }
    subst m. rewrite (Em k d) by assumption. f_equal. unfold progression. apply map_ext. intros i. lia.
Qed.

(** An unsigned range with more than half of the values between its bounds. *)
Lemma wide_unsigned_lemma h : 2 <= h ->
  range_count (2 * h) false 0 (2 * h) h = Ok (4 * h - 1) /\ counts 0 (2 * h) h 2.
Proof.
  intros H. split.
  - unfold range_count, op_T. rewrite Z.sub_0_r. rewrite to_unsigned_id by lia. cbn [bind].
    assert (E : to_signed (2 * h) (2 * h) = - (2 * h)).
    { unfold to_signed. replace (2 * h + 2 * h) with (1 * (2 * (2 * h))) by lia. rewrite Z.mod_mul by lia. lia. }
    replace (0 <? h) with true by lia.
    assert (chk_ok : forall x, - (2 * h) <= x < 2 * h -> chk (2 * h) x = Ok x).
    { intros x Hx. unfold chk, in_signed. replace ((- (2 * h) <=? x) && (x <? 2 * h)) with true by lia. reflexivity. }
    rewrite chk_ok by lia. cbn [bind]. rewrite E, chk_ok by lia. cbn [bind]. replace (h =? 0) with false by lia.
    assert (Q : Z.quot (- (2 * h) + (h - 1)) h = -1).
    { replace (- (2 * h) + (h - 1)) with (- (h + 1)) by lia. rewrite Z.quot_opp_l by lia.
      rewrite Z.quot_div_nonneg by lia.
      assert (E1 : (h + 1) / h = 1) by (symmetry; apply Z.div_unique with 1; lia). lia. }
    rewrite Q, chk_ok by lia. cbn [bind]. f_equal. unfold to_unsigned.
    symmetry. apply Z.mod_unique with (-1); lia.
  - split; intros Hs i; [|lia]. split; intros Hi; nia.
Qed.

Lemma wide_signed_lemma M d first last step : M <= Z.abs (last - first) - 1 ->
  integer_range M true d first last step = UB.
Proof.
  intros H. unfold integer_range, range_count, op_T, chk at 1, in_signed.
  replace ((- M <=? last - first) && (last - first <? M)) with false by lia. cbn [bind].
  destruct ((first <? last) && (0 <? step) || (last <? first) && (step <? 0) || (first =? last)); reflexivity.
Qed.

Lemma integer_n_lemma {A} (i : A) : forall k d n, (n <= 2 ^ k)%nat -> (k < d)%nat -> integer_n d i n = Ok (repeat i n).
Proof.
  induction k as [|k IH]; intros d n Hn Hd; (destruct d as [|d]; [lia|]); cbn [integer_n].
  - cbn [Nat.pow] in Hn. destruct n as [|[|n]]; [reflexivity|reflexivity|lia].
  - destruct (Nat.eqb_spec n 0) as [->|E0]; [reflexivity|]. destruct (Nat.eqb_spec n 1) as [->|E1]; [reflexivity|].
    cbn [Nat.pow] in Hn.
    assert (R : forall a b, repeat i (a + b) = repeat i a ++ repeat i b) by (intros; apply repeat_app).
    destruct (Nat.Even_or_Odd n) as [[h ->]|[h ->]].
    + replace (2 * h / 2)%nat with h by (apply Nat.div_unique with 0%nat; lia).
      replace (2 * h mod 2)%nat with 0%nat by (apply Nat.mod_unique with h; lia).
      rewrite IH by lia. cbn [bind Nat.eqb]. rewrite <- R. do 2 f_equal. lia.
    + replace ((2 * h + 1) / 2)%nat with h by (apply Nat.div_unique with 1%nat; lia).
      replace ((2 * h + 1) mod 2)%nat with 1%nat by (apply Nat.mod_unique with h; lia).
      rewrite IH by lia. cbn [bind Nat.eqb]. change [i] with (repeat i 1). rewrite <- !R. do 2 f_equal. lia.
Qed.
