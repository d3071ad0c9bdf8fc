(** Bit reversal, the scrambler and the loops of sprout::fft. *)
From Coq Require Import List Bool Arith Lia Reals ZifyBool ZifyNat.
From Verif Require Import Base CqModel FftModel FftSpec FftProof.
Import ListNotations.

(** ** reads and writes *)
Lemma rd_at (l : list C) i : i < length l -> rd l i = Ok (at_ l i).
Proof.
  intros H. unfold rd, at_. rewrite (nth_error_nth' l czero H). reflexivity.
Qed.
Lemma wr_at (l : list C) i v : i < length l -> wr l i v = Ok (upd l i v).
Proof. intros H. unfold wr. apply Nat.ltb_lt in H. rewrite H. reflexivity. Qed.
Lemma len_upd (l : list C) i v : length (upd l i v) = length l.
Proof.
  revert i; induction l as [|a l IH]; intros [|i]; cbn [upd length]; try reflexivity.
  rewrite IH. reflexivity.
Qed.
Lemma at_upd (l : list C) i v s : i < length l ->
  at_ (upd l i v) s = if s =? i then v else at_ l s.
Proof.
  revert i s; induction l as [|a l IH]; intros [|i] [|s] H; cbn [length] in H;
    try (exfalso; lia); unfold at_ in *; cbn [upd nth Nat.eqb]; try reflexivity.
  apply IH. lia.
Qed.

(** ** bit reversal of p bits *)
Fixpoint brev (p j : nat) : nat :=
  match p with
  | O => 0
  | S p' => (j mod 2) * 2 ^ p' + brev p' (j / 2)
  end.

Lemma mod2_cases j : j mod 2 = 0 \/ j mod 2 = 1.
Proof. pose proof (Nat.mod_upper_bound j 2). lia. Qed.

Lemma brev_lt p : forall j, brev p j < 2 ^ p.
Proof.
  induction p as [|p IH]; intros j; cbn [brev Nat.pow]; [lia|].
  specialize (IH (j / 2)). destruct (mod2_cases j) as [-> | ->]; lia.
Qed.

Lemma land_pow2 p b : b < 2 ^ p -> Nat.land b (2 ^ p) = 0.
Proof.
  intros H. apply Nat.bits_inj_0. intros k. rewrite Nat.land_spec, Nat.pow2_bits_eqb.
  destruct (p =? k) eqn:E; [|apply andb_false_r].
  apply Nat.eqb_eq in E. subst k. rewrite andb_true_r.
  rewrite Nat.testbit_odd, Nat.shiftr_div_pow2, Nat.div_small by exact H. reflexivity.
Qed.
Lemma lxor_set p b : b < 2 ^ p -> Nat.lxor b (2 ^ p) = 2 ^ p + b.
Proof.
  intros H. rewrite <- Nat.add_nocarry_lxor by (apply land_pow2, H). lia.
Qed.
Lemma lxor_clear p b : b < 2 ^ p -> Nat.lxor (2 ^ p + b) (2 ^ p) = b.
Proof.
  intros H. rewrite <- lxor_set by exact H.
  rewrite Nat.lxor_assoc, Nat.lxor_nilpotent, Nat.lxor_0_r. reflexivity.
Qed.

Lemma pow2_half p : 2 ^ S p / 2 = 2 ^ p.
Proof. rewrite Nat.pow_succ_r', Nat.mul_comm. apply Nat.div_mul. lia. Qed.

Lemma succ_even j : j mod 2 = 0 -> (j + 1) mod 2 = 1 /\ (j + 1) / 2 = j / 2.
Proof.
  intros H. pose proof (Nat.div_mod_eq j 2) as E. split; symmetry.
  - apply Nat.mod_unique with (j / 2); lia.
  - apply Nat.div_unique with 1; lia.
Qed.
Lemma succ_odd j : j mod 2 = 1 -> (j + 1) mod 2 = 0 /\ (j + 1) / 2 = j / 2 + 1.
Proof.
  intros H. pose proof (Nat.div_mod_eq j 2) as E. split; symmetry.
  - apply Nat.mod_unique with (j / 2 + 1); lia.
  - apply Nat.div_unique with 0; lia.
Qed.

Lemma rev_step_ok p : forall f j, p < f -> rev_step f (2 ^ p / 2) (brev p j) = Ok (brev p (j + 1)).
Proof.
  induction p as [|p IH]; intros f j Hf; (destruct f as [|f]; [lia|]).
  - reflexivity.
  - cbn [rev_step]. rewrite pow2_half. pose proof (brev_lt p (j / 2)) as Hb.
    destruct (mod2_cases j) as [E|E].
    + replace (brev (S p) j) with (brev p (j / 2)) by (cbn [brev]; rewrite E; lia).
      rewrite lxor_set by exact Hb.
      replace (2 ^ p + brev p (j / 2) <? 2 ^ p) with false by lia.
      destruct (succ_even j E) as [E1 E2]. cbn [brev]. rewrite E1, E2. f_equal. lia.
    + replace (brev (S p) j) with (2 ^ p + brev p (j / 2)) by (cbn [brev]; rewrite E; lia).
      rewrite lxor_clear by exact Hb.
      apply Nat.ltb_lt in Hb. rewrite Hb, IH by lia.
      destruct (succ_odd j E) as [E1 E2]. cbn [brev]. rewrite E1, E2. reflexivity.
Qed.

Lemma half_lt p j : j < 2 ^ S p -> j / 2 < 2 ^ p.
Proof. intros H. apply Nat.div_lt_upper_bound; [lia|]. cbn [Nat.pow] in H. lia. Qed.

Lemma brev_top p : forall b j, b < 2 -> j < 2 ^ p -> brev (S p) (b * 2 ^ p + j) = 2 * brev p j + b.
Proof.
  induction p as [|p IH]; intros b j Hb Hj.
  - cbn [Nat.pow] in Hj. replace j with 0 by lia. cbn [brev Nat.pow].
    replace (b * 1 + 0) with b by lia. rewrite Nat.mod_small by exact Hb. lia.
  - change (brev (S (S p)) (b * 2 ^ S p + j))
      with ((b * 2 ^ S p + j) mod 2 * 2 ^ S p + brev (S p) ((b * 2 ^ S p + j) / 2)).
    assert (Ed : (b * 2 ^ S p + j) / 2 = b * 2 ^ p + j / 2).
    { symmetry. apply Nat.div_unique with (j mod 2); [apply Nat.mod_upper_bound; lia|].
      pose proof (Nat.div_mod_eq j 2). cbn [Nat.pow]. lia. }
    assert (Em : (b * 2 ^ S p + j) mod 2 = j mod 2).
    { replace (b * 2 ^ S p + j) with (j + (b * 2 ^ p) * 2) by (cbn [Nat.pow]; ring).
      apply Nat.mod_add. lia. }
    rewrite Ed, Em, IH by (exact Hb || (apply half_lt; exact Hj)).
    cbn [brev Nat.pow]. ring.
Qed.

Lemma brev_invol p : forall j, j < 2 ^ p -> brev p (brev p j) = j.
Proof.
  induction p as [|p IH]; intros j Hj; [cbn [brev Nat.pow] in *; lia|].
  change (brev (S p) j) with (j mod 2 * 2 ^ p + brev p (j / 2)).
  rewrite brev_top; [|apply Nat.mod_upper_bound; lia|apply brev_lt].
  rewrite IH by (apply Nat.div_lt_upper_bound; [lia|]; cbn [Nat.pow] in Hj; lia).
  pose proof (Nat.div_mod_eq j 2). lia.
Qed.

Lemma brev_scale a : forall b h, h < 2 ^ a -> brev (a + b) h = 2 ^ b * brev a h.
Proof.
  induction a as [|a IH]; intros b h Hh.
  - cbn [Nat.pow] in Hh. replace h with 0 by lia. cbn [brev Nat.add]. rewrite Nat.mul_0_r.
    clear. induction b as [|b IH]; [reflexivity|]. cbn [brev]. rewrite Nat.mod_0_l, Nat.div_0_l by lia.
    rewrite IH. reflexivity.
  - cbn [Nat.add brev]. rewrite IH
      by (apply Nat.div_lt_upper_bound; [lia|]; cbn [Nat.pow] in Hh; lia).
    rewrite Nat.pow_add_r. ring.
Qed.

Lemma brev_0 p : brev p 0 = 0.
Proof. induction p as [|p IH]; [reflexivity|]. cbn [brev]. rewrite Nat.mod_0_l, Nat.div_0_l, IH by lia. reflexivity. Qed.

Lemma brev_4 q h b : b < 4 ->
  brev (S (S q)) (4 * h + b) = (b mod 2) * 2 ^ S q + (b / 2) * 2 ^ q + brev q h.
Proof.
  intros Hb. cbn [brev].
  assert (E1 : (4 * h + b) mod 2 = b mod 2).
  { replace (4 * h + b) with (b + (2 * h) * 2) by lia. apply Nat.mod_add. lia. }
  assert (E2 : (4 * h + b) / 2 = b / 2 + h * 2).
  { replace (4 * h + b) with (b + (2 * h) * 2) by lia. rewrite Nat.div_add; lia. }
  assert (Hb2 : b / 2 < 2) by (apply Nat.div_lt_upper_bound; lia).
  rewrite E1, E2, Nat.mod_add, Nat.div_add, (Nat.mod_small (b / 2)), (Nat.div_small (b / 2)) by lia.
  cbn [Nat.add]. lia.
Qed.
Lemma brev_2 q h b : b < 2 -> brev (S q) (2 * h + b) = b * 2 ^ q + brev q h.
Proof.
  intros Hb. cbn [brev]. replace (2 * h + b) with (b + h * 2) by lia.
  rewrite Nat.mod_add, Nat.div_add, Nat.mod_small, Nat.div_small by lia. reflexivity.
Qed.

(** ** the scrambler *)
Section Scramble.
  Variable x : list C.
  Variable p : nat.
  Hypothesis Hx : length x = 2 ^ p.

  Definition scrambled (j : nat) (A : list C) : Prop :=
    length A = 2 ^ p /\
    forall s, s < 2 ^ p ->
      at_ A s = if Nat.min s (brev p s) <? j then at_ x (brev p s) else at_ x s.

  Lemma swap_ok A i j : i < length A -> j < length A -> i <> j ->
    exists A', swap_at A i j = Ok A' /\ length A' = length A /\
      forall s, at_ A' s = if s =? j then at_ A i else if s =? i then at_ A j else at_ A s.
  Proof.
    intros Hi Hj Hn. unfold swap_at. rewrite !rd_at by assumption. cbn [bind].
    rewrite wr_at by exact Hi. cbn [bind]. rewrite wr_at by (rewrite len_upd; exact Hj).
    eexists. split; [reflexivity|]. split; [rewrite !len_upd; reflexivity|].
    intros s. rewrite at_upd by (rewrite len_upd; exact Hj). rewrite at_upd by exact Hi. reflexivity.
  Qed.

  Lemma scramble_step j A : 1 <= j -> j < 2 ^ p - 1 -> scrambled j A ->
    exists A', (if j <? brev p j then swap_at A (brev p j) j else Ok A) = Ok A' /\ scrambled (S j) A'.
  Proof.
    intros H1 Hj [HL HA]. pose proof (brev_lt p j) as Hb.
    assert (Hinv : brev p (brev p j) = j) by (apply brev_invol; lia).
    destruct (j <? brev p j) eqn:E.
    - destruct (swap_ok A (brev p j) j) as (A' & -> & HL' & HA'); try lia.
      exists A'. split; [reflexivity|]. split; [lia|]. intros s Hs. rewrite HA'.
      rewrite !HA by lia. rewrite Hinv.
      destruct (s =? j) eqn:E1; [apply Nat.eqb_eq in E1; subst s|].
      { replace (Nat.min (brev p j) j <? j) with false by lia.
        replace (Nat.min j (brev p j) <? S j) with true by lia. reflexivity. }
      destruct (s =? brev p j) eqn:E2; [apply Nat.eqb_eq in E2; subst s|].
      { rewrite Hinv. replace (Nat.min j (brev p j) <? j) with false by lia.
        replace (Nat.min (brev p j) j <? S j) with true by lia. reflexivity. }
      assert (Hne : brev p s <> j).
      { intros Eq. rewrite <- Eq in E2. rewrite brev_invol in E2 by exact Hs.
        rewrite Nat.eqb_refl in E2. discriminate. }
      replace (Nat.min s (brev p s) <? S j) with (Nat.min s (brev p s) <? j) by lia. reflexivity.
    - exists A. split; [reflexivity|]. split; [exact HL|]. intros s Hs. rewrite HA by exact Hs.
      destruct (Nat.min s (brev p s) <? j) eqn:E1.
      + replace (Nat.min s (brev p s) <? S j) with true by lia. reflexivity.
      + destruct (Nat.min s (brev p s) <? S j) eqn:E2; [|reflexivity].
        assert (Hm : Nat.min s (brev p s) = j) by lia.
        destruct (Nat.eq_dec s j) as [->|Hne].
        * f_equal. lia.
        * assert (Eq : brev p s = j) by lia.
          assert (Es : s = brev p j) by (rewrite <- Eq; symmetry; apply brev_invol; exact Hs).
          lia.
  Qed.

  Lemma scramble_ok f : forall j A, 1 <= j -> j <= 2 ^ p -> 2 ^ p + p < f + j -> scrambled j A ->
    exists A', scramble f (2 ^ p) (brev p (j - 1)) j A = Ok A' /\
      length A' = 2 ^ p /\ forall s, s < 2 ^ p -> at_ A' s = at_ x (brev p s).
  Proof.
    induction f as [|f IH]; intros j A H1 Hj Hf HA; [lia|]. cbn [scramble].
    destruct (j <? 2 ^ p - 1) eqn:E.
    - rewrite rev_step_ok by lia. cbn [bind]. replace (j - 1 + 1) with j by lia.
      destruct (scramble_step j A) as (A1 & -> & HA1); try lia; [exact HA|]. cbn [bind].
      destruct (IH (j + 1) A1) as (A' & HR & HP); try lia.
      + rewrite Nat.add_1_r. exact HA1.
      + replace (j + 1 - 1) with j in HR by lia. exists A'. split; [exact HR|exact HP].
    - exists A. split; [reflexivity|]. destruct HA as [HL HA]. split; [exact HL|].
      intros s Hs. rewrite HA by exact Hs.
      destruct (Nat.min s (brev p s) <? j) eqn:E1; [reflexivity|].
      pose proof (brev_lt p s). f_equal. lia.
  Qed.

  Lemma scrambled_1 : scrambled 1 x.
  Proof.
    split; [exact Hx|]. intros s Hs. destruct (Nat.min s (brev p s) <? 1) eqn:E; [|reflexivity].
    assert (H : s = 0 \/ brev p s = 0) by lia. destruct H as [->|H].
    - rewrite brev_0. reflexivity.
    - rewrite H. assert (Es : s = brev p (brev p s)) by (symmetry; apply brev_invol; exact Hs).
      rewrite Es, H, brev_0. reflexivity.
  Qed.
End Scramble.

(** ** which indices below 2^l the loop over k visits *)
Fixpoint U (l r : nat) : bool :=
  match l with
  | O => true
  | S l' => if r <? 2 ^ l' then true else negb (U l' (r - 2 ^ l'))
  end.

Section Loops.
  Variable Hf : (nat -> bool) -> list C -> Prop.
  Variable body : nat -> list C -> res (list C).
  Variables base l : nat.
  Hypothesis Hext : forall d1 d2 A, (forall r, r < 2 ^ l -> d1 r = d2 r) -> Hf d1 A -> Hf d2 A.
  Hypothesis Hbody : forall dn r A, r < 2 ^ l -> U l r = true -> dn r = false -> Hf dn A ->
    exists A', body (base + r) A = Ok A' /\ Hf (fun r' => dn r' || (r' =? r)) A'.

  Lemma j_loop_ok f : forall a b dn A, a <= b -> b <= 2 ^ l ->
    (forall r, a <= r < b -> U l r = true /\ dn r = false) -> b - a < f -> Hf dn A ->
    exists A', j_loop f body (base + a) (base + b) A = Ok A' /\
      Hf (fun r => dn r || ((a <=? r) && (r <? b))) A'.
  Proof.
    induction f as [|f IH]; intros a b dn A Hab Hb Hr Hfu HA; [lia|]. cbn [j_loop].
    destruct (base + a <? base + b) eqn:E.
    - destruct (Hr a) as [Hu Hd]; [lia|].
      destruct (Hbody dn a A) as (A1 & -> & HA1); try assumption; [lia|]. cbn [bind].
      destruct (IH (a + 1) b (fun r' => dn r' || (r' =? a)) A1) as (A' & HR & HP); try lia.
      + intros r Hrr. destruct (Hr r) as [Hu' Hd']; [lia|]. split; [exact Hu'|].
        rewrite Hd'. lia.
      + exact HA1.
      + exists A'. split; [rewrite <- HR; f_equal; lia|].
        refine (Hext _ _ _ _ HP). intros r _. cbn beta. destruct (dn r); lia.
    - exists A. split; [reflexivity|]. refine (Hext _ _ _ _ HA). intros r _. destruct (dn r); lia.
  Qed.

  Lemma k_loop_ok : forall c, forall f dn A, c <= l ->
    (forall r, 2 ^ l - 2 ^ c <= r < 2 ^ l -> U l r = U c (r - (2 ^ l - 2 ^ c)) /\ dn r = false) ->
    2 ^ c + c + 1 < f -> Hf dn A ->
    exists A', k_loop f body base (2 ^ l) (2 ^ c) A = Ok A' /\
      Hf (fun r => dn r || ((2 ^ l - 2 ^ c <=? r) && U c (r - (2 ^ l - 2 ^ c)))) A'.
  Proof.
    assert (Hind : forall c, (forall c', c' < c -> forall f dn A, c' <= l ->
      (forall r, 2 ^ l - 2 ^ c' <= r < 2 ^ l -> U l r = U c' (r - (2 ^ l - 2 ^ c')) /\ dn r = false) ->
      2 ^ c' + c' + 1 < f -> Hf dn A ->
      exists A', k_loop f body base (2 ^ l) (2 ^ c') A = Ok A' /\
        Hf (fun r => dn r || ((2 ^ l - 2 ^ c' <=? r) && U c' (r - (2 ^ l - 2 ^ c')))) A') ->
      forall f dn A, c <= l ->
      (forall r, 2 ^ l - 2 ^ c <= r < 2 ^ l -> U l r = U c (r - (2 ^ l - 2 ^ c)) /\ dn r = false) ->
      2 ^ c + c + 1 < f -> Hf dn A ->
      exists A', k_loop f body base (2 ^ l) (2 ^ c) A = Ok A' /\
        Hf (fun r => dn r || ((2 ^ l - 2 ^ c <=? r) && U c (r - (2 ^ l - 2 ^ c)))) A').
    2:{ intros c. induction c as [c IH] using lt_wf_ind. apply Hind. exact IH. }
    intros c IH f dn A Hc Hr Hfu HA.
    assert (Hle : 2 ^ c <= 2 ^ l) by (apply Nat.pow_le_mono_r; lia).
    pose proof (pow2_pos c) as Hpos.
    destruct f as [|f]; [lia|]. cbn [k_loop]. replace (1 <=? 2 ^ c) with true by lia.
    replace (base + 2 ^ l - 2 ^ c) with (base + (2 ^ l - 2 ^ c)) by lia.
    destruct c as [|[|c]].
    - change (2 ^ 0 / 2) with 0. change (2 ^ 0 / 4) with 0. change (2 ^ 0) with 1 in *.
      replace (base + 2 ^ l - 0) with (base + 2 ^ l) by lia.
      destruct (j_loop_ok f (2 ^ l - 1) (2 ^ l) dn A) as (A' & -> & HA'); try lia.
      + intros r Hrr. destruct (Hr r) as [E1 E2]; [lia|]. split; [rewrite E1; reflexivity|exact E2].
      + exact HA.
      + cbn [bind]. destruct f as [|f]; [lia|]. cbn [k_loop Nat.leb].
        exists A'. split; [reflexivity|]. refine (Hext _ _ _ _ HA'). intros r Hrl.
        cbn beta. cbn [U]. destruct (dn r); lia.
    - change (2 ^ 1 / 2) with 1. change (2 ^ 1 / 4) with 0. change (2 ^ 1) with 2 in *.
      replace (base + 2 ^ l - 1) with (base + (2 ^ l - 1)) by lia.
      destruct (j_loop_ok f (2 ^ l - 2) (2 ^ l - 1) dn A) as (A' & -> & HA'); try lia.
      + intros r Hrr. destruct (Hr r) as [E1 E2]; [lia|]. split; [|exact E2]. rewrite E1.
        cbn [U]. change (2 ^ 0) with 1. replace (r - (2 ^ l - 2) <? 1) with true by lia. reflexivity.
      + exact HA.
      + cbn [bind]. destruct f as [|f]; [lia|]. cbn [k_loop Nat.leb].
        exists A'. split; [reflexivity|]. refine (Hext _ _ _ _ HA'). intros r Hrl.
        cbn beta. cbn [U]. change (2 ^ 0) with 1.
        destruct (dn r); destruct (r - (2 ^ l - 2) <? 1) eqn:E1; cbn [negb]; lia.
    - assert (Hh : 2 ^ S (S c) / 2 = 2 ^ S c) by apply pow2_half.
      assert (Hq : 2 ^ S (S c) / 4 = 2 ^ c).
      { change 4 with (2 * 2). rewrite <- Nat.div_div by lia. rewrite Hh. apply pow2_half. }
      rewrite Hh, Hq.
      assert (Hp1 : 2 ^ S (S c) = 4 * 2 ^ c) by (cbn [Nat.pow]; lia).
      assert (Hp2 : 2 ^ S c = 2 * 2 ^ c) by (cbn [Nat.pow]; lia).
      pose proof (pow2_pos c) as Hpc.
      assert (HU : forall y, U (S (S c)) y =
                (y <? 2 ^ S c) || ((3 * 2 ^ c <=? y) && U c (y - 3 * 2 ^ c))).
      { intros y. cbn [U]. destruct (y <? 2 ^ S c) eqn:E1; [reflexivity|]. cbn [orb].
        destruct (y - 2 ^ S c <? 2 ^ c) eqn:E2; cbn [negb].
        - replace (3 * 2 ^ c <=? y) with false by lia. reflexivity.
        - replace (3 * 2 ^ c <=? y) with true by lia. rewrite negb_involutive. cbn [andb].
          f_equal. lia. }
      replace (base + 2 ^ l - 2 ^ S c) with (base + (2 ^ l - 2 ^ S c)) by lia.
      destruct (j_loop_ok f (2 ^ l - 2 ^ S (S c)) (2 ^ l - 2 ^ S c) dn A) as (A1 & -> & HA1); try lia.
      + intros r Hrr. destruct (Hr r) as [E1 E2]; [lia|]. split; [|exact E2]. rewrite E1, HU.
        replace (r - (2 ^ l - 2 ^ S (S c)) <? 2 ^ S c) with true by lia. reflexivity.
      + exact HA.
      + cbn [bind].
        destruct (IH c ltac:(lia) f
          (fun r => dn r || ((2 ^ l - 2 ^ S (S c) <=? r) && (r <? 2 ^ l - 2 ^ S c))) A1)
          as (A' & HR & HP); try lia.
        * intros r Hrr. destruct (Hr r) as [E1 E2]; [lia|]. split.
          -- rewrite E1, HU. replace (r - (2 ^ l - 2 ^ S (S c)) <? 2 ^ S c) with false by lia.
             replace (3 * 2 ^ c <=? r - (2 ^ l - 2 ^ S (S c))) with true by lia. cbn [orb andb].
             f_equal. lia.
          -- cbn beta. rewrite E2. lia.
        * exact HA1.
        * exists A'. split; [exact HR|]. refine (Hext _ _ _ _ HP). intros r Hrl. cbn beta.
          rewrite HU.
          replace (r - (2 ^ l - 2 ^ S (S c)) - 3 * 2 ^ c) with (r - (2 ^ l - 2 ^ c)) by lia.
          destruct (dn r); [reflexivity|]. cbn [orb].
          destruct (U c (r - (2 ^ l - 2 ^ c))); lia.
  Qed.

  (** the whole loop over k: exactly the indices in U *)
  Lemma k_loop_all f dn A : (forall r, r < 2 ^ l -> dn r = false) -> 2 ^ l + l + 1 < f -> Hf dn A ->
    exists A', k_loop f body base (2 ^ l) (2 ^ l) A = Ok A' /\ Hf (U l) A'.
  Proof.
    intros Hd Hfu HA.
    destruct (k_loop_ok l f dn A) as (A' & HR & HP); try lia.
    - intros r Hr. split; [f_equal; lia|apply Hd; lia].
    - exact HA.
    - exists A'. split; [exact HR|]. refine (Hext _ _ _ _ HP). intros r Hr. cbn beta.
      rewrite (Hd r Hr), Nat.sub_diag. replace (r - 0) with r by lia. reflexivity.
  Qed.
End Loops.
