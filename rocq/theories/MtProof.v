From Coq Require Import List Arith ZArith Bool Lia.
From Coq Require Import ZifyBool ZifyNat.
From Verif Require Import Base BitModel BitSpec BitProof ShaModel ShaProof LcgSpec MtModel MtSpec.
Import ListNotations.
Open Scope Z_scope.

(** ** bits *)
Lemma land_low x r : 0 <= r -> Z.land x (2 ^ r - 1) = x mod 2 ^ r.
Proof. intros R. rewrite <- Z.land_ones by exact R. now rewrite Z.ones_equiv, Z.sub_1_r. Qed.
Lemma land_high x r W : 0 <= r <= W -> 0 <= x < 2 ^ W -> Z.land x (2 ^ W - 2 ^ r) = x / 2 ^ r * 2 ^ r.
Proof.
  intros R X. replace (2 ^ W - 2 ^ r) with (Z.ones (W - r) * 2 ^ r).
  2: { rewrite Z.ones_equiv, <- Z.sub_1_r, Z.mul_sub_distr_r, <- Z.pow_add_r by lia. rewrite Z.mul_1_l. do 2 f_equal. lia. }
  rewrite <- !Z.shiftl_mul_pow2, <- Z.shiftr_div_pow2 by lia. apply Z.bits_inj'. intros i Hi. rewrite Z.land_spec.
  destruct (Z_lt_ge_dec i r).
  - rewrite !Z.shiftl_spec_low by lia. apply andb_false_r.
  - rewrite !Z.shiftl_spec_high, Z.shiftr_spec by lia. replace (i - r + r) with i by lia.
    destruct (Z_lt_ge_dec i W).
    + rewrite Z.ones_spec_low by lia. apply andb_true_r.
    + rewrite Z.ones_spec_high by lia. rewrite andb_false_r. symmetry. destruct (Z.eq_dec x 0) as [-> |]; [apply Z.bits_0|].
      apply Z.bits_above_log2; [lia|]. apply Z.log2_lt_pow2; [lia|]. apply Z.lt_le_trans with (2 ^ W); [lia|]. apply pow_mono. lia.
Qed.
Lemma lt_pow_bits x W : 0 <= W -> 0 <= x -> (0 <= x < 2 ^ W <-> forall i, W <= i -> Z.testbit x i = false).
Proof.
  intros HW Hx. split.
  - intros X i Hi. destruct (Z.eq_dec x 0) as [-> |]; [apply Z.bits_0|]. apply Z.bits_above_log2; [lia|]. apply Z.log2_lt_pow2; [lia|].
    apply Z.lt_le_trans with (2 ^ W); [lia|]. apply pow_mono. lia.
  - intros H. split; [exact Hx|]. destruct (Z.eq_dec x 0) as [-> |]; [apply pow_pos; lia|]. apply Z.log2_lt_pow2; [lia|].
    destruct (Z_lt_ge_dec (Z.log2 x) W) as [|G]; [assumption|]. pose proof (H (Z.log2 x) ltac:(lia)) as E. rewrite Z.bit_log2 in E; [discriminate|lia].
Qed.
Lemma lxor_lt x y W : 0 <= W -> 0 <= x < 2 ^ W -> 0 <= y < 2 ^ W -> 0 <= Z.lxor x y < 2 ^ W.
Proof.
  intros HW X Y. apply lt_pow_bits; [exact HW|apply Z.lxor_nonneg; lia|]. intros i Hi. rewrite Z.lxor_spec.
  rewrite (proj1 (lt_pow_bits x W HW ltac:(lia)) X), (proj1 (lt_pow_bits y W HW ltac:(lia)) Y) by exact Hi. reflexivity.
Qed.
Lemma land_lt x y W : 0 <= W -> 0 <= x -> 0 <= y < 2 ^ W -> 0 <= Z.land x y < 2 ^ W.
Proof.
  intros HW X Y. apply lt_pow_bits; [exact HW|apply Z.land_nonneg; lia|]. intros i Hi. rewrite Z.land_spec.
  rewrite (proj1 (lt_pow_bits y W HW ltac:(lia)) Y) by exact Hi. apply andb_false_r.
Qed.
Lemma land_mod_wide x y w W : 0 <= w <= W -> 0 <= y < 2 ^ w -> Z.land (x mod 2 ^ W) y = Z.land (x mod 2 ^ w) y.
Proof.
  intros HW Y. apply Z.bits_inj'. intros i Hi. rewrite !Z.land_spec. destruct (Z_lt_ge_dec i w).
  - now rewrite !Z.mod_pow2_bits_low by lia.
  - rewrite (proj1 (lt_pow_bits y w ltac:(lia) ltac:(lia)) Y i) by lia. now rewrite !andb_false_r.
Qed.

(** ** loops and arrays *)
Lemma for_ok {A} (body : nat -> A -> res A) (f : nat -> A) : forall k lo, (forall j, (lo <= j < lo + k)%nat -> body j (f j) = Ok (f (S j))) ->
  for_ k lo body (f lo) = Ok (f (lo + k)%nat).
Proof.
  induction k as [|k IH]; intros lo H; cbn [for_]. { now rewrite Nat.add_0_r. }
  rewrite H by lia. cbn [bind]. rewrite IH by (intros j Hj; apply H; lia). do 2 f_equal. lia.
Qed.
Lemma map_seq_nth (f : nat -> Z) n i : (i < n)%nat -> nth i (map f (seq 0 n)) 0 = f i.
Proof. intros H. rewrite (nth_indep _ 0 (f O)) by (rewrite map_length, seq_length; exact H). rewrite map_nth, seq_nth by exact H. reflexivity. Qed.
Lemma list_ext (l k : list Z) : length l = length k -> (forall i, (i < length l)%nat -> nth i l 0 = nth i k 0) -> l = k.
Proof. intros L H. apply (nth_ext l k 0 0 L H). Qed.

Section Mt.
  Variable P : mtp.
  Hypothesis V : mt_valid P.
  Notation t := (mt P).
  Notation w := (mw P).
  Notation n := (mn P).
  Notation m := (mm P).
  Notation r := (mr P).
  Notation W := (wid (mt P)).
  Notation word x := (0 <= x < 2 ^ mw P).

  Lemma vw : 2 <= w <= W /\ (1 <= m < n)%nat /\ 1 <= r < w /\ W <= 64 /\ sgn t = false.
  Proof.
    destruct V as (S & L & A & B & C & _). repeat (split; [lia||assumption|]). split; [|exact S]. unfold wid, bytes.
    assert (2 ^ Z.of_nat (lg t) <= 2 ^ 3) by (apply pow_mono; lia). change (2 ^ 3) with 8 in *. lia.
  Qed.
  Lemma wW : 2 ^ w <= 2 ^ W.
  Proof. apply pow_mono. pose proof vw. lia. Qed.
  Lemma w0 : 0 < 2 ^ w.
  Proof. apply pow_pos. pose proof vw. lia. Qed.
  Lemma cv z : conv t z = z mod 2 ^ W.
  Proof. unfold conv. destruct vw as (_ & _ & _ & _ & ->). reflexivity. Qed.
  Lemma ar z : arith t z = Ok (z mod 2 ^ W).
  Proof. unfold arith. destruct vw as (_ & _ & _ & _ & S). rewrite S. now rewrite cv. Qed.
  Lemma sl x s : 0 <= s < W -> shl true t x s = Ok ((x * 2 ^ s) mod 2 ^ W).
  Proof. intros H. rewrite shl_ok by tauto. now rewrite cv. Qed.
  Lemma sr x s : 0 <= s < W -> shr t x s = Ok (x / 2 ^ s).
  Proof. intros H. rewrite shr_ok by tauto. now rewrite Z.shiftr_div_pow2 by lia. Qed.

  Lemma upper_ok : upper_mask P = Ok (2 ^ W - 2 ^ r).
  Proof.
    pose proof vw. unfold upper_mask. rewrite sl by lia. unfold cpl. rewrite cv. f_equal.
    change (Z.lnot 0) with (-1). rewrite Z.mul_mod_idemp_l by (pose proof (pow_pos W); lia).
    symmetry. apply (Z.mod_unique _ _ (-1)); [|ring]. left. pose proof (pow_strict r W). pose proof (pow_pos r). lia.
  Qed.
  Lemma lower_ok : lower_mask P (2 ^ W - 2 ^ r) = 2 ^ r - 1.
  Proof.
    pose proof vw. unfold lower_mask, cpl. rewrite cv. unfold Z.lnot. rewrite <- Z.sub_1_r. symmetry. apply (Z.mod_unique _ _ (-1)); [|ring].
    left. pose proof (pow_strict r W). pose proof (pow_pos r). lia.
  Qed.
  Lemma glue_ok x0 x1 : word x0 -> Z.lor (Z.land x0 (2 ^ W - 2 ^ r)) (Z.land x1 (2 ^ r - 1)) = glue P x0 x1.
  Proof.
    intros X. pose proof vw. pose proof wW. rewrite land_high, land_low by lia. rewrite lor_add; [unfold glue; ring|lia|]. apply Z.mod_pos_bound, pow_pos. lia.
  Qed.
  Lemma glue_word x0 x1 : word x0 -> word (glue P x0 x1).
  Proof.
    intros X. pose proof vw. unfold glue. pose proof (pow_pos r ltac:(lia)) as R. pose proof (Z.mod_pos_bound x1 (2 ^ r) R) as M.
    pose proof (Z.div_pos x0 (2 ^ r) ltac:(lia) R). split; [nia|].
    assert (x0 / 2 ^ r < 2 ^ (w - r)). { apply Z.div_lt_upper_bound; [lia|]. rewrite <- Z.pow_add_r by lia. replace (r + (w - r)) with w by lia. lia. }
    replace (2 ^ w) with (2 ^ r * 2 ^ (w - r)) by (rewrite <- Z.pow_add_r by lia; f_equal; lia). nia.
  Qed.
  Lemma glue_odd x0 x1 : Z.odd (glue P x0 x1) = Z.odd x1.
  Proof.
    pose proof vw. unfold glue. replace r with (1 + (r - 1)) by lia. rewrite Z.pow_add_r by lia. change (2 ^ 1) with 2.
    rewrite Z.rem_mul_r by (try lia; pose proof (pow_pos (r - 1)); lia). rewrite <- !Z.mul_assoc.
    set (q := 2 ^ (r - 1) * _). set (q' := (x1 / 2) mod _). rewrite Z.add_assoc. rewrite !Z.odd_add, !Z.odd_mul. cbn [Z.odd andb].
    rewrite Zmod_odd. destruct (Z.odd x1); reflexivity.
  Qed.
  Lemma va : word (ma P) /\ word (md_ P) /\ word (mb P) /\ word (mc P) /\ word (mf P).
  Proof. destruct V as (_ & _ & _ & _ & _ & _ & _ & _ & _ & H). exact H. Qed.
  Lemma times_a_word y : word y -> word (times_a P y).
  Proof.
    intros Y. pose proof vw. pose proof va as (A & _). unfold times_a. assert (D : word (y / 2)).
    { split; [apply Z.div_pos; lia|]. apply Z.div_lt_upper_bound; lia. }
    destruct (Z.odd y); [|exact D]. apply lxor_lt; try assumption. lia.
  Qed.
  Lemma next_word x0 x1 xm : word x0 -> word xm -> word (Z.lxor xm (times_a P (glue P x0 x1))).
  Proof. intros. pose proof vw. apply lxor_lt; [lia|assumption|]. apply times_a_word, glue_word. assumption. Qed.

  Lemma odd_term x1 y : Z.odd y = Z.odd x1 -> Z.lxor (y / 2) ((Z.land x1 1 * ma P) mod 2 ^ W) = times_a P y.
  Proof.
    intros O. pose proof va as (A & _). pose proof wW. change 1 with (Z.ones 1). rewrite Z.land_ones by lia. change (2 ^ 1) with 2. rewrite Zmod_odd, <- O. unfold times_a.
    destruct (Z.odd y).
    - rewrite Z.mul_1_l, Z.mod_small by lia. reflexivity.
    - rewrite Z.mul_0_l, Z.mod_0_l by lia. apply Z.lxor_0_r.
  Qed.

  Lemma rdn (l : list Z) i : (i < length l)%nat -> rd l i = Ok (nth i l 0).
  Proof. apply rd_nth_d. Qed.
  Lemma twist_at_ok x j j1 jm : length x = n -> Forall (fun x => word x) x -> (j < n)%nat -> (j1 < n)%nat -> (jm < n)%nat ->
    twist_at P j j1 jm x = Ok (upd x j (Z.lxor (nth jm x 0) (times_a P (glue P (nth j x 0) (nth j1 x 0))))).
  Proof.
    intros L F J J1 JM. pose proof vw. unfold twist_at. rewrite !rdn by lia. cbn [bind]. rewrite upper_ok. cbn [bind]. rewrite lower_ok.
    rewrite Forall_forall in F. assert (X : word (nth j x 0)) by (apply F, nth_In; lia).
    rewrite glue_ok by exact X. rewrite sr by lia. cbn [bind]. rewrite ar. cbn [bind]. rewrite wr_upd by lia. do 2 f_equal.
    rewrite Z.lxor_assoc. f_equal. change (2 ^ 1) with 2. apply odd_term. apply glue_odd.
  Qed.

  (** ** the sequence of words *)
  Lemma adv_length win : (0 < length win)%nat -> length (mt_adv P win) = length win.
  Proof. intros H. unfold mt_adv. rewrite app_length. destruct win; cbn [length tl] in *; lia. Qed.
  Lemma advance_length k : forall win, (0 < length win)%nat -> length (advance P k win) = length win.
  Proof. induction k as [|k IH]; intros win H; cbn [advance]; [reflexivity|]. rewrite IH; rewrite adv_length; lia. Qed.
  Lemma advance_add k j : forall win, advance P (k + j) win = advance P j (advance P k win).
  Proof. induction k as [|k IH]; intros win; cbn [advance plus]; [reflexivity|]. apply IH. Qed.
  Lemma advance_S k win : advance P (S k) win = mt_adv P (advance P k win).
  Proof. replace (S k) with (k + 1)%nat by lia. rewrite advance_add. reflexivity. Qed.

  Variable old : list Z.
  Hypothesis Lo : length old = n.
  Hypothesis Fo : Forall (fun x => word x) old.
  Definition X (k : nat) : Z := nth 0 (advance P k old) 0.
  Lemma Ln k : length (advance P k old) = n.
  Proof. pose proof vw. rewrite advance_length; lia. Qed.
  Lemma nth_X j : forall k, (j < n)%nat -> nth j (advance P k old) 0 = X (k + j).
  Proof.
    induction j as [|j IH]; intros k H. { now rewrite Nat.add_0_r. }
    replace (k + S j)%nat with (S k + j)%nat by lia. rewrite <- IH by lia. rewrite advance_S. unfold mt_adv.
    pose proof (Ln k) as L. destruct (advance P k old) as [|h l]; cbn [length tl nth] in *; [lia|]. rewrite app_nth1 by lia. reflexivity.
  Qed.
  Lemma X_next k : X (k + n) = mt_next P (advance P k old).
  Proof.
    pose proof vw. replace (k + n)%nat with (S k + (n - 1))%nat by lia. rewrite <- nth_X by lia. rewrite advance_S. unfold mt_adv.
    assert (Lt : length (tl (advance P k old)) = (n - 1)%nat).
    { pose proof (Ln k) as L. destruct (advance P k old); cbn [length tl] in *; lia. }
    rewrite app_nth2 by lia. rewrite Lt, Nat.sub_diag. reflexivity.
  Qed.
  Lemma X_rec k : X (k + n) = Z.lxor (X (k + m)) (times_a P (glue P (X k) (X (k + 1)))).
  Proof. pose proof vw. rewrite X_next. unfold mt_next. rewrite !nth_X by lia. now rewrite Nat.add_0_r. Qed.
  Lemma X_word : forall k, word (X k).
  Proof.
    intros k. induction k as [k IH] using lt_wf_ind. pose proof vw. destruct (le_lt_dec n k) as [H1|H1].
    - replace k with (k - n + n)%nat by lia. rewrite X_rec. apply next_word; apply IH; lia.
    - rewrite Forall_forall in Fo. replace k with (0 + k)%nat by lia. rewrite <- nth_X by exact H1. apply Fo. apply nth_In. cbn [advance]. lia.
  Qed.
  Lemma advance_word k : Forall (fun x => word x) (advance P k old).
  Proof.
    apply Forall_forall. intros x Hx. apply (In_nth _ _ 0) in Hx. destruct Hx as (i & Hi & <-). rewrite Ln in Hi. rewrite nth_X by exact Hi. apply X_word.
  Qed.

  (** ** the twist *)
  Definition arr (j : nat) : list Z := map (fun p => if (p <? j)%nat then X (n + p) else X p) (seq 0 n).
  Lemma arr_length j : length (arr j) = n.
  Proof. unfold arr. now rewrite map_length, seq_length. Qed.
  Lemma arr_nth j p : (p < n)%nat -> nth p (arr j) 0 = if (p <? j)%nat then X (n + p) else X p.
  Proof. intros H. unfold arr. now rewrite map_seq_nth. Qed.
  Lemma arr_word j : Forall (fun x => word x) (arr j).
  Proof.
    apply Forall_forall. intros x Hx. apply (In_nth _ _ 0) in Hx. destruct Hx as (i & Hi & <-). rewrite arr_length in Hi. rewrite arr_nth by exact Hi.
    destruct (i <? j)%nat; apply X_word.
  Qed.
  Lemma arr_upd j : (j < n)%nat -> upd (arr j) j (X (n + j)) = arr (S j).
  Proof.
    intros J. apply list_ext. { now rewrite upd_length', !arr_length. }
    intros i Hi. rewrite upd_length', arr_length in Hi. rewrite (arr_nth (S j)) by exact Hi.
    destruct (Nat.eq_dec i j) as [-> |N].
    - rewrite upd_nth_eq by (rewrite arr_length; exact J). destruct (Nat.ltb_spec j (S j)); [reflexivity|lia].
    - rewrite upd_nth_neq by (intros E; apply N; now rewrite E). rewrite arr_nth by exact Hi. destruct (Nat.ltb_spec i j), (Nat.ltb_spec i (S j)); try reflexivity; lia.
  Qed.
  Lemma twist_step j j1 jm : (j < n)%nat -> (j1 < n)%nat -> (jm < n)%nat ->
    (if (jm <? j)%nat then (n + jm)%nat else jm) = (j + m)%nat -> (if (j1 <? j)%nat then (n + j1)%nat else j1) = (j + 1)%nat ->
    twist_at P j j1 jm (arr j) = Ok (arr (S j)).
  Proof.
    intros J J1 JM E1 E2. rewrite twist_at_ok by (try assumption; try apply arr_length; apply arr_word). f_equal. rewrite <- arr_upd by exact J. f_equal.
    replace (n + j)%nat with (j + n)%nat by lia. rewrite X_rec, <- E1, <- E2. rewrite !arr_nth by assumption. rewrite Nat.ltb_irrefl.
    destruct (jm <? j)%nat, (j1 <? j)%nat; reflexivity.
  Qed.
  Lemma arr_0 : arr 0 = old.
  Proof.
    apply list_ext; rewrite arr_length; [easy|]. intros i Hi. rewrite arr_nth by exact Hi. destruct (Nat.ltb_spec i 0); [lia|].
    change (X i) with (X (0 + i)). rewrite <- nth_X by exact Hi. reflexivity.
  Qed.
  Lemma arr_n : arr n = advance P n old.
  Proof.
    apply list_ext; rewrite arr_length; [now rewrite Ln|]. intros i Hi. rewrite arr_nth, nth_X by exact Hi. destruct (Nat.ltb_spec i n); [reflexivity|lia].
  Qed.
  Lemma do_twist_ok : do_twist P old = Ok (advance P n old).
  Proof.
    pose proof vw as (A & B & _). unfold do_twist. rewrite <- arr_0 at 1.
    pose proof (Nat.mod_le (n - m) 6 ltac:(lia)) as M1. pose proof (Nat.mod_le (m - 1) 6 ltac:(lia)) as M2.
    set (e1 := ((n - m) mod 6)%nat) in *. set (e2 := ((m - 1) mod 6)%nat) in *.
    rewrite (for_ok _ arr). 2: { intros j Hj. apply twist_step; try lia. - destruct (Nat.ltb_spec (j + m) j); lia. - destruct (Nat.ltb_spec (j + 1) j); lia. }
    cbn [bind]. replace (0 + (n - m - e1))%nat with (n - m - e1)%nat by lia.
    rewrite (for_ok _ arr). 2: { intros j Hj. apply twist_step; try lia. - destruct (Nat.ltb_spec (j + m) j); lia. - destruct (Nat.ltb_spec (j + 1) j); lia. }
    cbn [bind]. replace (n - m - e1 + e1)%nat with (n - m)%nat by lia.
    rewrite (for_ok _ arr). 2: { intros j Hj. apply twist_step; try lia. - destruct (Nat.ltb_spec (j - (n - m)) j); lia. - destruct (Nat.ltb_spec (j + 1) j); lia. }
    cbn [bind]. replace (n - m + (n - 1 - e2 - (n - m)))%nat with (n - 1 - e2)%nat by lia.
    rewrite (for_ok _ arr). 2: { intros j Hj. apply twist_step; try lia. - destruct (Nat.ltb_spec (j - (n - m)) j); lia. - destruct (Nat.ltb_spec (j + 1) j); lia. }
    cbn [bind]. replace (n - 1 - e2 + e2)%nat with (n - 1)%nat by lia.
    rewrite twist_step; try lia.
    - rewrite <- arr_n. do 2 f_equal. lia.
    - destruct (Nat.ltb_spec (m - 1) (n - 1)); lia.
    - destruct (Nat.ltb_spec 0 (n - 1)); lia.
  Qed.
End Mt.
