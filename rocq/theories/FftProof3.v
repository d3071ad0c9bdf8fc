(** One stage of sprout::fft, and the whole of it. *)
From Coq Require Import List Bool Arith Lia Reals ZifyBool ZifyNat.
From Verif Require Import Base CqModel FftModel FftSpec FftProof FftProof2.
Import ListNotations.

(** position h (4 q) + b q + r *)
Lemma place q h b r : r < q -> b < 4 ->
  let s := h * (4 * q) + b * q + r in
  s / (4 * q) = h /\ s mod (4 * q) = b * q + r /\ s mod q = r /\ s / q = 4 * h + b /\
  s mod (2 * q) = (b mod 2) * q + r /\ s / (2 * q) = 2 * h + b / 2.
Proof.
  intros Hr Hb s. subst s.
  assert (Hbq : b * q + r < 4 * q) by nia.
  assert (Hm : b mod 2 < 2) by (apply Nat.mod_upper_bound; lia).
  pose proof (Nat.div_mod_eq b 2) as Eb.
  assert (Hbm : (b mod 2) * q + r < 2 * q) by nia.
  repeat split; symmetry.
  - apply Nat.div_unique with (b * q + r); [lia|ring].
  - apply Nat.mod_unique with h; [lia|ring].
  - apply Nat.mod_unique with (4 * h + b); [lia|ring].
  - apply Nat.div_unique with r; [lia|ring].
  - apply Nat.mod_unique with (2 * h + b / 2); [lia|]. rewrite Eb at 1. ring.
  - apply Nat.div_unique with ((b mod 2) * q + r); [lia|]. rewrite Eb at 1. ring.
Qed.

Lemma unplace q s : 0 < q ->
  exists b, b < 4 /\ s = s / (4 * q) * (4 * q) + b * q + s mod q /\ s mod q < q.
Proof.
  intros Hq. exists (s / q - 4 * (s / (4 * q))).
  pose proof (Nat.div_mod_eq s q) as E1. pose proof (Nat.mod_upper_bound s q ltac:(lia)) as B1.
  assert (E2 : s / (4 * q) = s / q / 4) by (rewrite Nat.mul_comm, Nat.div_div by lia; reflexivity).
  rewrite E2. pose proof (Nat.div_mod_eq (s / q) 4) as E3.
  pose proof (Nat.mod_upper_bound (s / q) 4 ltac:(lia)) as B3.
  split; [lia|]. split; [|lia]. nia.
Qed.

Definition tw (n : nat) (g : R -> R -> C) (e : nat) : Prop :=
  forall u v, g u v = cmul (Cx u v) (W (-1) n e).

Lemma lshape_ok g1 g3 q j A : 0 < q -> j + 3 * q < length A ->
  let a := at_ A j in let b := at_ A (j + q) in
  let c := at_ A (j + 2 * q) in let d := at_ A (j + 3 * q) in
  let x1 := csub a b in let x3 := csub d c in
  exists A', lshape Rops g1 g3 q j A = Ok A' /\ length A' = length A /\
    forall s, at_ A' s =
      if s =? j + 3 * q then g3 (re x1 + im x3)%R (im x1 - re x3)%R
      else if s =? j + q then g1 (re x1 - im x3)%R (im x1 + re x3)%R
      else if s =? j + 2 * q then cadd c d
      else if s =? j then cadd a b else at_ A s.
Proof.
  intros Hq Hj a b c d x1 x3. unfold lshape.
  replace (j + q + q) with (j + 2 * q) by lia. replace (j + 2 * q + q) with (j + 3 * q) by lia.
  rewrite !rd_at by lia. cbn [bind]. rewrite wr_at by lia. cbn [bind].
  rewrite (rd_at _ (j + 3 * q)) by (rewrite len_upd; lia). cbn [bind].
  rewrite (rd_at _ (j + 2 * q)) by (rewrite len_upd; lia). cbn [bind].
  rewrite wr_at by (rewrite len_upd; lia). cbn [bind].
  rewrite wr_at by (rewrite !len_upd; lia). cbn [bind].
  rewrite wr_at by (rewrite !len_upd; lia).
  eexists. split; [reflexivity|]. split; [rewrite !len_upd; reflexivity|].
  intros s. rewrite !at_upd by (rewrite ?len_upd; lia).
  replace (j + 3 * q =? j) with false by lia. replace (j + 2 * q =? j) with false by lia.
  reflexivity.
Qed.

Section Stage.
  Variable X : nat -> C.
  Variable p : nat.
  Local Notation n := (2 ^ p).

  Definition V (l s : nat) : C :=
    if U l (s mod 2 ^ l) then D X p l (s mod 2 ^ l) (brev (p - l) (s / 2 ^ l))
    else D X p (S l) (s mod 2 ^ S l) (brev (p - S l) (s / 2 ^ S l)).

  Definition Half (l : nat) (dn : nat -> nat -> bool) (A : list C) : Prop :=
    length A = n /\
    forall s, s < n -> at_ A s = if dn (s / 2 ^ S (S l)) (s mod 2 ^ l) then V (S l) s else V l s.

  Lemma Half_ext l d1 d2 A :
    (forall h r, h < 2 ^ (p - S (S l)) -> r < 2 ^ l -> d1 h r = d2 h r) -> S (S l) <= p ->
    Half l d1 A -> Half l d2 A.
  Proof.
    intros H Hl [HL HA]. split; [exact HL|]. intros s Hs. rewrite <- H.
    - apply HA, Hs.
    - apply Nat.div_lt_upper_bound; [pose proof (pow2_pos (S (S l))); lia|].
      rewrite <- Nat.pow_add_r. replace (S (S l) + (p - S (S l))) with p by lia. exact Hs.
    - apply Nat.mod_upper_bound. pose proof (pow2_pos l). lia.
  Qed.

  Lemma U_low l r : r < 2 ^ l -> U (S l) r = true.
  Proof. intros H. cbn [U]. apply Nat.ltb_lt in H. rewrite H. reflexivity. Qed.
  Lemma U_high l r : U (S l) (2 ^ l + r) = negb (U l r).
  Proof.
    cbn [U]. replace (2 ^ l + r <? 2 ^ l) with false by lia.
    replace (2 ^ l + r - 2 ^ l) with r by lia. reflexivity.
  Qed.

  (** positions whose transform is not split at this stage keep their value *)
  Lemma V_keep l s : U l (s mod 2 ^ l) = false -> V (S l) s = V l s.
  Proof.
    intros H. unfold V at 2. rewrite H. unfold V.
    assert (Hq : 0 < 2 ^ l) by apply pow2_pos.
    destruct (unplace (2 ^ l) s Hq) as (b & Hb & Es & Hr).
    destruct (place (2 ^ l) (s / (4 * 2 ^ l)) b (s mod 2 ^ l) Hr Hb) as (_ & _ & _ & _ & E & _).
    rewrite <- Es in E. change (2 * 2 ^ l) with (2 ^ S l) in E.
    replace (U (S l) (s mod 2 ^ S l)) with true; [reflexivity|].
    rewrite E. destruct (mod2_cases b) as [-> | ->].
    - rewrite Nat.mul_0_l, Nat.add_0_l. symmetry. apply U_low, Hr.
    - rewrite Nat.mul_1_l, U_high, H. reflexivity.
  Qed.

  Section Butterfly.
    Variables l h r : nat.
    Hypothesis Hl : S (S l) <= p.
    Hypothesis Hr : r < 2 ^ l.
    Hypothesis HU : U l r = true.
    Local Notation q := (2 ^ l).
    Local Notation t := (brev (p - S (S l)) h).

    Lemma V_old b : b < 4 ->
      V l (h * (4 * q) + b * q + r)
      = D X p l r (t + (b / 2) * 2 ^ (p - S (S l)) + (b mod 2) * 2 ^ (p - S l)).
    Proof.
      intros Hb. destruct (place q h b r Hr Hb) as (_ & _ & E1 & E2 & _ & _).
      unfold V. rewrite E1, E2, HU.
      replace (p - l) with (S (S (p - S (S l)))) by lia.
      rewrite brev_4 by exact Hb. f_equal.
      replace (S (p - S (S l))) with (p - S l) by lia. lia.
    Qed.

    Lemma V_new b : b < 4 ->
      V (S l) (h * (4 * q) + b * q + r)
      = if b mod 2 =? 0 then D X p (S l) r (t + (b / 2) * 2 ^ (p - S (S l)))
        else D X p (S (S l)) (r + b * q) t.
    Proof.
      intros Hb. destruct (place q h b r Hr Hb) as (E1 & E2 & _ & _ & E3 & E4).
      assert (Q4 : 2 ^ S (S l) = 4 * q) by (cbn [Nat.pow]; lia).
      assert (Hb2 : b / 2 < 2) by (apply Nat.div_lt_upper_bound; lia).
      unfold V. rewrite Q4. change (2 ^ S l) with (2 * q). rewrite E3, E4, E1, E2.
      destruct (mod2_cases b) as [E | E]; rewrite E; cbn [Nat.eqb].
      - rewrite Nat.mul_0_l, Nat.add_0_l, U_low by exact Hr.
        replace (p - S l) with (S (p - S (S l))) by lia.
        rewrite brev_2 by exact Hb2. f_equal. lia.
      - rewrite Nat.mul_1_l, U_high, HU. cbn [negb]. f_equal. lia.
    Qed.

    Lemma butterfly_ok g1 g3 dn A :
      h < 2 ^ (p - S (S l)) ->
      tw n g1 (t * q) -> tw n g3 (3 * (t * q)) ->
      dn h r = false -> Half l dn A ->
      exists A', lshape Rops g1 g3 q (h * (4 * q) + r) A = Ok A' /\
        Half l (fun h' r' => dn h' r' || ((h' =? h) && (r' =? r))) A'.
    Proof.
      intros Hh Hg1 Hg3 Hd [HL HA].
      assert (Hq : 0 < q) by apply pow2_pos.
      assert (Hn : n = 2 ^ (p - S (S l)) * (4 * q)).
      { replace (4 * q) with (2 ^ S (S l)) by (cbn [Nat.pow]; lia).
        rewrite <- Nat.pow_add_r. f_equal. lia. }
      assert (Hin : forall b, b < 4 -> h * (4 * q) + b * q + r < n) by (intros b Hb; nia).
      assert (Hold : forall b, b < 4 -> at_ A (h * (4 * q) + b * q + r)
        = D X p l r (t + (b / 2) * 2 ^ (p - S (S l)) + (b mod 2) * 2 ^ (p - S l))).
      { intros b Hb. rewrite HA by (apply Hin, Hb).
        destruct (place q h b r Hr Hb) as (E1 & _ & E2 & _).
        replace (2 ^ S (S l)) with (4 * q) by (cbn [Nat.pow]; lia).
        rewrite E1, E2, Hd. apply V_old, Hb. }
      destruct (lshape_ok g1 g3 q (h * (4 * q) + r) A) as (A' & HR & HL' & HA'); try lia.
      { rewrite HL. specialize (Hin 3). lia. }
      exists A'. split; [exact HR|]. split; [lia|]. intros s Hs.
      replace (h * (4 * q) + r + q) with (h * (4 * q) + 1 * q + r) in HA' by lia.
      replace (h * (4 * q) + r + 2 * q) with (h * (4 * q) + 2 * q + r) in HA' by lia.
      replace (h * (4 * q) + r + 3 * q) with (h * (4 * q) + 3 * q + r) in HA' by lia.
      replace (h * (4 * q) + r) with (h * (4 * q) + 0 * q + r) in HA' by lia.
      rewrite !Hold in HA' by lia.
      change (0 / 2) with 0 in HA'. change (0 mod 2) with 0 in HA'.
      change (1 / 2) with 0 in HA'. change (1 mod 2) with 1 in HA'.
      change (2 / 2) with 1 in HA'. change (2 mod 2) with 0 in HA'.
      change (3 / 2) with 1 in HA'. change (3 mod 2) with 1 in HA'.
      rewrite !Nat.mul_0_l, !Nat.mul_1_l, !Nat.add_0_r in HA'.
      rewrite HA'. clear HA' HR.
      pose proof (fun E => V_new 0 E) as N0. pose proof (fun E => V_new 1 E) as N1.
      pose proof (fun E => V_new 2 E) as N2. pose proof (fun E => V_new 3 E) as N3.
      change (0 / 2) with 0 in N0. change (0 mod 2 =? 0) with true in N0.
      change (1 mod 2 =? 0) with false in N1.
      change (2 / 2) with 1 in N2. change (2 mod 2 =? 0) with true in N2.
      change (3 mod 2 =? 0) with false in N3.
      rewrite !Nat.mul_0_l, !Nat.add_0_r in N0. rewrite !Nat.mul_1_l in N1, N2.
      replace (2 ^ S (S l)) with (4 * q) by (cbn [Nat.pow]; lia).
      assert (Hrow : forall b, b < 4 ->
        (dn ((h * (4 * q) + b * q + r) / (4 * q)) ((h * (4 * q) + b * q + r) mod q)
         || (((h * (4 * q) + b * q + r) / (4 * q) =? h)
             && ((h * (4 * q) + b * q + r) mod q =? r))) = true).
      { intros b Hb. destruct (place q h b r Hr Hb) as (E1 & _ & E2 & _).
        rewrite E1, E2, !Nat.eqb_refl. apply orb_true_r. }
      pose proof (Hrow 0 ltac:(lia)) as R0. pose proof (Hrow 1 ltac:(lia)) as R1.
      rewrite !Nat.mul_0_l, !Nat.add_0_r in R0. rewrite !Nat.mul_1_l in R1.
      destruct (s =? h * (4 * q) + 3 * q + r) eqn:E3;
        [apply Nat.eqb_eq in E3; subst s; rewrite Hrow by lia|].
      { rewrite N3, D_l3 by lia. rewrite Hg3. f_equal.
        apply cx_eq; cbn [re im cadd csub cmul ci]; ring. }
      destruct (s =? h * (4 * q) + q + r) eqn:E1;
        [apply Nat.eqb_eq in E1; subst s; rewrite R1|].
      { rewrite N1, D_l1 by lia. rewrite Hg1. f_equal.
        apply cx_eq; cbn [re im cadd csub cmul ci]; ring. }
      destruct (s =? h * (4 * q) + 2 * q + r) eqn:E2;
        [apply Nat.eqb_eq in E2; subst s; rewrite Hrow by lia|].
      { rewrite N2, D_low by lia. reflexivity. }
      destruct (s =? h * (4 * q) + r) eqn:E0;
        [apply Nat.eqb_eq in E0; subst s; rewrite R0|].
      { rewrite N0, D_low by lia. reflexivity. }
      rewrite HA by exact Hs. replace (2 ^ S (S l)) with (4 * q) by (cbn [Nat.pow]; lia).
      replace ((s / (4 * q) =? h) && (s mod q =? r)) with false.
      - rewrite orb_false_r. reflexivity.
      - destruct (unplace q s Hq) as (b & Hb & Es & _).
        destruct (s / (4 * q) =? h) eqn:F1; [|reflexivity].
        destruct (s mod q =? r) eqn:F2; [|reflexivity]. exfalso.
        apply Nat.eqb_eq in F1, F2. rewrite F1, F2 in Es.
        apply Nat.eqb_neq in E0, E1, E2, E3.
        clear - Es E0 E1 E2 E3 Hb. generalize dependent (h * (4 * q)). intros z Es E0 E1 E2 E3.
        destruct b as [|[|[|[|b]]]]; [| | | |lia]; cbn [Nat.mul] in Es; lia.
    Qed.
  End Butterfly.

  (** the loop over k of one block *)
  Lemma block_ok l h g1 g3 f A :
    S (S l) <= p -> h < 2 ^ (p - S (S l)) ->
    tw n g1 (brev (p - S (S l)) h * 2 ^ l) -> tw n g3 (3 * (brev (p - S (S l)) h * 2 ^ l)) ->
    2 ^ l + l + 1 < f ->
    Half l (fun h' r' => (h' <? h) && U l r') A ->
    exists A', k_loop f (lshape Rops g1 g3 (2 ^ l)) (h * (4 * 2 ^ l)) (2 ^ l) (2 ^ l) A = Ok A' /\
      Half l (fun h' r' => (h' <? S h) && U l r') A'.
  Proof.
    intros Hl Hh Hg1 Hg3 Hfu HA.
    destruct (k_loop_all
      (fun dn A => Half l (fun h' r' => ((h' <? h) && U l r') || ((h' =? h) && dn r')) A)
      (lshape Rops g1 g3 (2 ^ l)) (h * (4 * 2 ^ l)) l) with (f := f) (dn := fun _ : nat => false) (A := A)
      as (A' & HR & HP).
    - intros d1 d2 B Hd. apply Half_ext; [|exact Hl]. intros h' r' _ Hr'. rewrite Hd by exact Hr'.
      reflexivity.
    - intros dn r B Hr HU Hd HB.
      destruct (butterfly_ok l h r Hl Hr HU g1 g3
        (fun h' r' => ((h' <? h) && U l r') || ((h' =? h) && dn r')) B) as (B' & HR & HP);
        try assumption.
      + cbn beta. rewrite Hd. lia.
      + exists B'. split; [exact HR|]. refine (Half_ext _ _ _ _ _ Hl HP).
        intros h' r' _ _. cbn beta.
        destruct (h' <? h), (U l r'), (h' =? h), (dn r'), (r' =? r); reflexivity.
    - reflexivity.
    - exact Hfu.
    - refine (Half_ext _ _ _ _ _ Hl HA). intros h' r' _ _. rewrite andb_false_r, orb_false_r. reflexivity.
    - exists A'. split; [exact HR|]. refine (Half_ext _ _ _ _ _ Hl HP). intros h' r' _ _. cbn beta.
      destruct (U l r'); lia.
  Qed.

  Definition theta : R := (- (PI / 2 / INR n))%R.

  Lemma theta_W e k : W (-1) n e = cis (theta * (4 * INR e)) /\
    W (-1) n (k * e) = cis (theta * INR k * (4 * INR e)).
  Proof.
    unfold W, theta. split; f_equal; rewrite ?mult_INR; unfold Rdiv; field; apply INR_pos, pow2_pos.
  Qed.

  Lemma tw_irev l h k : S (S l) <= p -> h < 2 ^ (p - S (S l)) ->
    W (-1) n (brev (p - S (S l)) h * 2 ^ l) = cis (theta * INR (brev p h)) /\
    W (-1) n (k * (brev (p - S (S l)) h * 2 ^ l)) = cis (theta * INR k * INR (brev p h)).
  Proof.
    intros Hl Hh. assert (E : (INR (brev p h) = 4 * INR (brev (p - S (S l)) h * 2 ^ l))%R).
    { replace p with (p - S (S l) + S (S l)) at 1 by lia. rewrite brev_scale by exact Hh.
      rewrite <- (mult_INR 4) || idtac.
      replace (2 ^ S (S l) * brev (p - S (S l)) h) with (4 * (brev (p - S (S l)) h * 2 ^ l))
        by (cbn [Nat.pow]; lia).
      rewrite mult_INR. f_equal. cbn [INR]. ring. }
    rewrite E. apply theta_W.
  Qed.

  Lemma g_tw_ok x : forall u v, g_tw Rops (cos x) (sin x) u v = cmul (Cx u v) (cis x).
  Proof. intros u v. apply cx_eq; cbn [re im g_tw cmul cis Rops tmul tsub tadd]; ring. Qed.

  (** the loop over i *)
  Lemma i_loop_ok l f : forall h A,
    S (S l) <= p -> 1 <= h -> h <= 2 ^ (p - S (S l)) ->
    n + p + 1 + (2 ^ (p - S (S l)) - h) < f ->
    Half l (fun h' r' => (h' <? h) && U l r') A ->
    exists A', i_loop Rops Rtrig f theta n (4 * 2 ^ l) (h * (4 * 2 ^ l)) (brev p (h - 1)) A = Ok A' /\
      Half l (fun _ r' => U l r') A'.
  Proof.
    assert (Hn : S (S l) <= p -> n = 2 ^ (p - S (S l)) * (4 * 2 ^ l)).
    { intros Hl. replace (4 * 2 ^ l) with (2 ^ S (S l)) by (cbn [Nat.pow]; lia).
      rewrite <- Nat.pow_add_r. f_equal. lia. }
    induction f as [|f IH]; intros h A Hl H1 Hh Hfu HA; [lia|]. specialize (Hn Hl).
    pose proof (pow2_pos l) as Hq. cbn [i_loop].
    destruct (h * (4 * 2 ^ l) <? n) eqn:E.
    - assert (Hh' : h < 2 ^ (p - S (S l))) by nia.
      rewrite rev_step_ok by lia. cbn [bind]. replace (h - 1 + 1) with h by lia.
      destruct (tw_irev l h 3 Hl Hh') as [E1 E3].
      replace (4 * 2 ^ l / 4) with (2 ^ l) by (rewrite Nat.mul_comm, Nat.div_mul; lia).
      assert (Hlp : 2 ^ l <= n) by (apply Nat.pow_le_mono_r; lia).
      cbn [tcos tsin of_nat Rtrig].
      destruct (block_ok l h (g_tw Rops (cos (theta * INR (brev p h))) (sin (theta * INR (brev p h))))
        (g_tw Rops (cos (theta * INR 3 * INR (brev p h))) (sin (theta * INR 3 * INR (brev p h)))) f A)
        as (A1 & HR1 & HA1); try assumption.
      + intros u v. rewrite E1. apply g_tw_ok.
      + intros u v. rewrite E3. apply g_tw_ok.
      + lia.
      + change (tmul Rops (tmul Rops theta (INR 3)) (INR (brev p h)))
          with (theta * INR 3 * INR (brev p h))%R.
        change (tmul Rops theta (INR (brev p h))) with (theta * INR (brev p h))%R.
        rewrite HR1. cbn [bind].
        destruct (IH (S h) A1) as (A' & HR & HP); try lia; [exact HA1|].
        exists A'. split; [|exact HP].
        replace (h * (4 * 2 ^ l) + 4 * 2 ^ l) with (S h * (4 * 2 ^ l)) by lia.
        replace (S h - 1) with h in HR by lia. exact HR.
    - exists A. split; [reflexivity|]. refine (Half_ext _ _ _ _ _ Hl HA).
      intros h' r' Hh' _. assert (h = 2 ^ (p - S (S l))) by nia.
      replace (h' <? h) with true by lia. reflexivity.
  Qed.

  (** the values after the stages below m = 4 2^l *)
  Definition Inv (l : nat) (A : list C) : Prop :=
    length A = n /\ forall s, s < n -> at_ A s = V l s.

  Lemma Half_start l A : Inv l A -> Half l (fun h' r' => (h' <? 0) && U l r') A.
  Proof. intros [HL HA]. split; [exact HL|]. intros s Hs. apply HA, Hs. Qed.
  Lemma Half_done l A : Half l (fun _ r' => U l r') A -> Inv (S l) A.
  Proof.
    intros [HL HA]. split; [exact HL|]. intros s Hs. rewrite HA by exact Hs.
    destruct (U l (s mod 2 ^ l)) eqn:E; [reflexivity|]. symmetry. apply V_keep, E.
  Qed.

  Lemma tw_one : tw n g_one 0.
  Proof.
    intros u v. rewrite W_0. apply cx_eq; cbn [re im g_one cmul cone]; ring.
  Qed.

  Lemma eighth : cos (- (PI / 4)) = (- sin (- (PI / 4)))%R.
  Proof. rewrite cos_neg, sin_neg, cos_PI4, sin_PI4. ring. Qed.

  Lemma tw_eighth l : S (S (S l)) <= p ->
    tw n (g_eighth Rops (cos (theta * INR (n / 2)))) (brev (p - S (S l)) 1 * 2 ^ l) /\
    tw n (g_eighth3 Rops (cos (theta * INR (n / 2)))) (3 * (brev (p - S (S l)) 1 * 2 ^ l)).
  Proof.
    intros Hl.
    assert (H1 : 1 < 2 ^ (p - S (S l))).
    { replace (p - S (S l)) with (S (p - S (S (S l)))) by lia. cbn [Nat.pow].
      pose proof (pow2_pos (p - S (S (S l)))). lia. }
    destruct (tw_irev l 1 3 ltac:(lia) H1) as [E1 E3].
    assert (Eb : brev p 1 = n / 2).
    { replace p with (S (p - 1)) by lia. rewrite pow2_half. cbn [brev].
      change (1 mod 2) with 1. change (1 / 2) with 0. rewrite brev_0. lia. }
    assert (Et : (theta * INR (n / 2) = - (PI / 4))%R).
    { unfold theta. assert (En : (INR n = 2 * INR (n / 2))%R).
      { replace p with (S (p - 1)) by lia. rewrite pow2_half. cbn [Nat.pow].
        rewrite mult_INR. f_equal. }
      rewrite En. field. apply INR_pos. replace p with (S (p - 1)) by lia. rewrite pow2_half.
      apply pow2_pos. }
    rewrite Eb in E1, E3.
    replace (theta * INR 3 * INR (n / 2))%R with (3 * (theta * INR (n / 2)))%R in E3
      by (cbn [INR]; ring).
    rewrite Et in *. split; intros u v.
    - rewrite E1. apply cx_eq; cbn [re im g_eighth cmul cis Rops tmul tadd tsub tneg];
        rewrite eighth; ring.
    - rewrite E3.
      replace (3 * - (PI / 4))%R with (- (PI / 4) + - (PI / 2))%R by field.
      rewrite cis_add.
      replace (cis (- (PI / 2))) with (cneg ci)
        by (apply cx_eq; cbn [re im cneg ci cis]; [rewrite cos_neg, cos_PI2|rewrite sin_neg, sin_PI2]; ring).
      apply cx_eq; cbn [re im g_eighth3 cmul cis cneg ci Rops tmul tadd tsub tneg];
        rewrite eighth; ring.
  Qed.

  (** one turn of the loop over m *)
  Lemma stage_ok l f A : S (S l) <= p -> 2 * n + p < f -> Inv l A ->
    exists A', m_loop Rops Rtrig (S f) theta n (4 * 2 ^ l) A
               = m_loop Rops Rtrig f theta n (4 * 2 ^ S l) A' /\ Inv (S l) A'.
  Proof.
    intros Hl Hfu HA. pose proof (pow2_pos l) as Hq. cbn [m_loop].
    assert (Hn : n = 2 ^ (p - S (S l)) * (4 * 2 ^ l)).
    { replace (4 * 2 ^ l) with (2 ^ S (S l)) by (cbn [Nat.pow]; lia).
      rewrite <- Nat.pow_add_r. f_equal. lia. }
    pose proof (pow2_pos (p - S (S l))) as Hb.
    assert (Hlp : 2 ^ l <= n) by (apply Nat.pow_le_mono_r; lia).
    replace (4 * 2 ^ l <=? n) with true by nia.
    replace (4 * 2 ^ l / 4) with (2 ^ l) by (rewrite Nat.mul_comm, Nat.div_mul; lia).
    destruct (block_ok l 0 g_one g_one f A) as (A1 & HR1 & HA1);
      [exact Hl|exact Hb| | | | |].
    - rewrite brev_0. exact tw_one.
    - rewrite brev_0. exact tw_one.
    - lia.
    - apply Half_start, HA.
    - cbn [Nat.mul] in HR1. rewrite HR1. cbn [bind].
      replace (4 * 2 ^ l * 2) with (4 * 2 ^ S l) by (cbn [Nat.pow]; lia).
      destruct (4 * 2 ^ l =? n) eqn:E.
      + exists A1. split; [reflexivity|]. apply Half_done.
        refine (Half_ext _ _ _ _ _ Hl HA1). intros h' r' Hh' _. cbn beta.
        replace (h' <? 1) with true by nia. reflexivity.
      + assert (Hl' : S (S (S l)) <= p).
        { destruct (Nat.eq_dec p (S (S l))) as [Ep|]; [|lia]. exfalso. apply Nat.eqb_neq in E. apply E.
          rewrite Ep. cbn [Nat.pow]. lia. }
        assert (H1 : 1 < 2 ^ (p - S (S l))) by (apply Nat.eqb_neq in E; nia).
        destruct (tw_eighth l Hl') as [T1 T3].
        destruct (block_ok l 1 (g_eighth Rops (cos (theta * INR (n / 2))))
          (g_eighth3 Rops (cos (theta * INR (n / 2)))) f A1) as (A2 & HR2 & HA2); try assumption; [lia|].
        rewrite Nat.mul_1_l in HR2. cbn [tcos of_nat Rtrig].
        change (tmul Rops theta (INR (n / 2))) with (theta * INR (n / 2))%R.
        rewrite HR2. cbn [bind].
        destruct (i_loop_ok l f 2 A2) as (A3 & HR3 & HA3); try lia; [nia|exact HA2|].
        replace (brev p (2 - 1)) with (n / 2) in HR3.
        * rewrite HR3. cbn [bind]. exists A3. split; [reflexivity|]. apply Half_done, HA3.
        * replace p with (S (p - 1)) by lia. rewrite pow2_half. cbn [brev Nat.sub].
          change (1 mod 2) with 1. change (1 / 2) with 0. rewrite brev_0. lia.
  Qed.

  Lemma m_loop_ok k : forall l f A, l + 1 + k = p -> 2 * n + p + k < f -> Inv l A ->
    exists A', m_loop Rops Rtrig f theta n (4 * 2 ^ l) A = Ok A' /\ Inv (p - 1) A'.
  Proof.
    induction k as [|k IH]; intros l f A Hk Hfu HA; (destruct f as [|f]; [lia|]).
    - cbn [m_loop]. replace (4 * 2 ^ l <=? n) with false.
      + exists A. split; [reflexivity|]. replace (p - 1) with l by lia. exact HA.
      + replace p with (S l) by lia. cbn [Nat.pow]. pose proof (pow2_pos l). lia.
    - destruct (stage_ok l f A) as (A1 & -> & HA1); try lia; [exact HA|].
      apply IH; try lia. exact HA1.
  Qed.

  (** the radix 2 butterflies *)
  Lemma radix2_ok f A : 1 <= p -> n + p + 1 < f -> Inv (p - 1) A ->
    exists A', k_loop f (radix2 Rops (n / 2)) 0 (n / 2) (n / 2) A = Ok A' /\
      length A' = n /\ forall s, s < n -> at_ A' s = D X p p s 0.
  Proof.
    intros Hp Hfu HA. set (l := p - 1). assert (Ep : p = S l) by lia.
    assert (En : n = 2 * 2 ^ l) by (rewrite Ep; reflexivity).
    assert (Eh : n / 2 = 2 ^ l) by (rewrite Ep; apply pow2_half).
    pose proof (pow2_pos l) as Hq. rewrite Eh.
    assert (Hpl : forall b r, b < 2 -> r < 2 ^ l ->
      (b * 2 ^ l + r) mod 2 ^ l = r /\ (b * 2 ^ l + r) / 2 ^ l = b).
    { intros b r Hb Hr. split; symmetry.
      - apply Nat.mod_unique with b; [lia|ring].
      - apply Nat.div_unique with r; [lia|ring]. }
    assert (HV : forall b r, b < 2 -> r < 2 ^ l -> U l r = true ->
      V l (b * 2 ^ l + r) = D X p l r b).
    { intros b r Hb Hr HU. destruct (Hpl b r Hb Hr) as [E1 E2]. unfold V. rewrite E1, E2, HU. f_equal.
      replace (p - l) with 1 by lia. cbn [brev Nat.pow]. rewrite Nat.mod_small by exact Hb. lia. }
    assert (Hall : forall b r, b < 2 -> r < 2 ^ l -> U l r = false ->
      V l (b * 2 ^ l + r) = D X p p (b * 2 ^ l + r) 0).
    { intros b r Hb Hr HU. destruct (Hpl b r Hb Hr) as [E1 E2]. unfold V. rewrite E1, HU.
      replace (p - S l) with 0 by lia. cbn [brev]. rewrite <- Ep. f_equal.
      apply Nat.mod_small. rewrite En. nia. }
    set (HH := fun (dn : nat -> bool) (B : list C) => length B = n /\
      forall b r, b < 2 -> r < 2 ^ l ->
        at_ B (b * 2 ^ l + r) = if dn r then D X p p (b * 2 ^ l + r) 0 else V l (b * 2 ^ l + r)).
    destruct (k_loop_all HH (radix2 Rops (2 ^ l)) 0 l) with (f := f) (dn := fun _ : nat => false) (A := A)
      as (A' & HR & HP).
    - intros d1 d2 B Hd [HL HB]. split; [exact HL|]. intros b r Hb Hr. rewrite <- Hd by exact Hr.
      apply HB; assumption.
    - intros dn r B Hr HU Hd [HL HB]. unfold radix2. cbn [Nat.add].
      rewrite !rd_at by lia. cbn [bind]. rewrite wr_at by lia. cbn [bind].
      rewrite wr_at by (rewrite len_upd; lia).
      eexists. split; [reflexivity|]. split; [rewrite !len_upd; exact HL|].
      pose proof (HB 0 r ltac:(lia) Hr) as B0. pose proof (HB 1 r ltac:(lia) Hr) as B1.
      rewrite Hd, HV in B0, B1 by (try exact HU; lia). rewrite Nat.mul_0_l, Nat.add_0_l in B0.
      rewrite Nat.mul_1_l in B1.
      intros b r' Hb Hr'. rewrite !at_upd by (rewrite ?len_upd; lia).
      destruct (r' =? r) eqn:Er; [apply Nat.eqb_eq in Er; subst r'; rewrite orb_true_r|
                                  rewrite orb_false_r].
      + destruct b as [|[|b]]; [| |lia].
        * rewrite Nat.mul_0_l, Nat.add_0_l.
          replace (r =? 2 ^ l + r) with false by lia. rewrite Nat.eqb_refl.
          replace (D X p p r 0) with (D X p (S l) r 0) by (rewrite <- Ep; reflexivity).
          rewrite D_low by lia. rewrite B0, B1.
          replace (p - S l) with 0 by lia. reflexivity.
        * rewrite Nat.mul_1_l, Nat.eqb_refl.
          replace (D X p p (2 ^ l + r) 0) with (D X p (S l) (r + 2 ^ l) 0)
            by (rewrite <- Ep; f_equal; lia).
          rewrite D_high by lia. rewrite B0, B1, Nat.mul_0_l, W_0.
          replace (p - S l) with 0 by lia. change (2 ^ 0) with 1. rewrite Nat.add_0_l.
          rewrite c_sub_eq. ring.
      + rewrite HB by assumption.
        assert (F : (b * 2 ^ l + r' =? 2 ^ l + r) = false /\ (b * 2 ^ l + r' =? r) = false).
        { clear - Er Hb Hr Hr'. apply Nat.eqb_neq in Er.
          destruct b as [|[|b]]; [| |lia]; split; apply Nat.eqb_neq; lia. }
        destruct F as [-> ->]. reflexivity.
    - reflexivity.
    - lia.
    - destruct HA as [HL HA]. split; [exact HL|]. intros b r Hb Hr. apply HA. rewrite En. nia.
    - exists A'. split; [exact HR|]. destruct HP as [HL HP]. split; [exact HL|]. intros s Hs.
      assert (Es : s = s / 2 ^ l * 2 ^ l + s mod 2 ^ l)
        by (rewrite Nat.mul_comm; apply Nat.div_mod_eq).
      assert (B1 : s / 2 ^ l < 2) by (apply Nat.div_lt_upper_bound; lia).
      assert (B2 : s mod 2 ^ l < 2 ^ l) by (apply Nat.mod_upper_bound; lia).
      rewrite Es at 1. rewrite HP by assumption.
      destruct (U l (s mod 2 ^ l)) eqn:E; [rewrite <- Es; reflexivity|].
      rewrite Hall by assumption. rewrite <- Es. reflexivity.
  Qed.
End Stage.

Lemma list_at (l l' : list C) : length l = length l' ->
  (forall s, s < length l -> at_ l s = at_ l' s) -> l = l'.
Proof.
  intros HL H. apply (nth_ext l l' czero czero HL). intros s Hs. apply H, Hs.
Qed.

Lemma at_map_seq (g : nat -> C) n s : s < n -> at_ (map g (seq 0 n)) s = g s.
Proof.
  intros H. unfold at_. rewrite (nth_indep _ czero (g 0)) by (rewrite map_length, seq_length; exact H).
  rewrite map_nth, seq_nth by exact H. reflexivity.
Qed.

Lemma pow2_gt p : p < 2 ^ p.
Proof. apply Nat.pow_gt_lin_r. lia. Qed.

Theorem fft_is_dft p x f : length x = 2 ^ p -> 4 * length x <= f ->
  fft Rops Rtrig f x = Ok (dft x).
Proof.
  intros Hx Hf. rewrite Hx in Hf. pose proof (pow2_gt p) as Hp. pose proof (pow2_pos p) as Hpos.
  unfold fft. rewrite Hx.
  destruct (scramble_ok x p Hx f 1 x) as (A0 & HR & HL & HA); try lia; [apply scrambled_1, Hx|].
  change (1 - 1) with 0 in HR. rewrite brev_0 in HR. rewrite HR. cbn [bind]. clear HR.
  change (tneg Rops (tdiv Rops (half_pi Rtrig) (of_nat Rtrig (2 ^ p)))) with (theta p).
  destruct p as [|p].
  - cbn [Nat.pow] in *. destruct f as [|f]; [lia|]. cbn [m_loop Nat.leb bind].
    change (1 / 2) with 0. cbn [k_loop Nat.leb]. f_equal. apply list_at.
    + unfold dft. rewrite map_length, seq_length. lia.
    + intros s Hs. rewrite HA by lia. unfold dft. rewrite Hx, at_map_seq by lia.
      rewrite <- ft_minus. replace s with 0 by lia. unfold ft. cbn [csum].
      rewrite Nat.mul_0_l, W_0. cbn [brev]. ring.
  - destruct (m_loop_ok (at_ x) (S p) p 0 f A0) as (A1 & HR1 & HA1); try lia.
    + split; [exact HL|]. intros s Hs. rewrite HA by exact Hs. unfold V. cbn [U Nat.pow].
      rewrite Nat.mod_1_r, Nat.div_1_r, D_0, Nat.sub_0_r. reflexivity.
    + change (4 * 2 ^ 0) with 4 in HR1. rewrite HR1. cbn [bind].
      destruct (radix2_ok (at_ x) (S p) f A1) as (A2 & HR2 & HL2 & HA2); try lia; [exact HA1|].
      rewrite HR2. f_equal. apply list_at.
      * unfold dft. rewrite map_length, seq_length. lia.
      * intros s Hs. rewrite HA2 by lia. unfold dft. rewrite Hx, at_map_seq by lia.
        rewrite D_all, ft_minus. reflexivity.
Qed.
