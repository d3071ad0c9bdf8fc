(** Proofs about factorial and bernoulli_number. *)
From Coq Require Import List Arith Bool ZArith QArith Qabs Lia Lqa.
From Coq Require Import ZifyBool ZifyNat.
From Verif Require Import Base TblModel TblSpec TblData.
Import ListNotations.
Local Open Scope Z_scope.

(** * Factorials *)
Lemma zfact_pos n : 1 <= zfact n.
Proof. induction n as [|n IH]; cbn [zfact]; [lia|nia]. Qed.
Lemma zfact_mono n m : (n <= m)%nat -> zfact n <= zfact m.
Proof. induction 1 as [|m L IH]; [lia|]. cbn [zfact]. pose proof (zfact_pos m). nia. Qed.

Lemma rd_map (f : nat -> Z) n x : (x < n)%nat -> rd (map f (seq 0 n)) x = Ok (f x).
Proof.
  intros L. unfold rd. rewrite (map_nth_error f x (seq 0 n) (d := x)); [reflexivity|].
  rewrite (nth_error_nth' _ 0%nat) by now rewrite seq_length. rewrite seq_nth by exact L. reflexivity.
Qed.
Definition exact_table (t : ftype) : Prop := factorials t = map zfact (seq 0 (S (factorial_limit t))).
Lemma exact_tables t : t <> Double -> t <> LongDouble -> exact_table t.
Proof. intros H1 H2. destruct t; try contradiction; vm_compute; reflexivity. Qed.
Lemma exact_factorial t x : exact_table t -> (x <= factorial_limit t)%nat -> factorial t x = Ok (zfact x).
Proof.
  intros E L. unfold factorial, unchecked_factorial. replace (x <=? factorial_limit t)%nat with true by (symmetry; apply Nat.leb_le, L).
  rewrite E. apply rd_map. lia.
Qed.
Lemma factorial_integer_lemma t x : is_integer t -> (x <= factorial_limit t)%nat -> factorial t x = Ok (zfact x).
Proof. intros (H1 & H2 & H3) L. apply exact_factorial; [now apply exact_tables|exact L]. Qed.

Definition close (i : nat) (f v : Z) : bool := (Z.abs (v - f) * 10 ^ 39 <=? f) && (negb (i <=? 40)%nat || (v =? f)).
Fixpoint close_all (i : nat) (f : Z) (l : list Z) : bool :=
  match l with
  | [] => true
  | v :: l => close i f v && close_all (S i) (Z.of_nat (S i) * f) l
  end.
Lemma close_double : close_all 0 1 factorials_double = true.
Proof. vm_compute. reflexivity. Qed.
Lemma long_double_table : factorials_long_double = factorials_double.
Proof. reflexivity. Qed.
Lemma double_length : length factorials_double = 171%nat.
Proof. reflexivity. Qed.
Lemma close_spec l : forall i x, close_all i (zfact i) l = true -> (x < length l)%nat -> exists v, nth_error l x = Some v /\
  Z.abs (v - zfact (i + x)) * 10 ^ 39 <= zfact (i + x) /\ ((i + x <= 40)%nat -> v = zfact (i + x)).
Proof.
  induction l as [|v l IH]; intros i x H L; [cbn [length] in L; lia|]. cbn [close_all] in H. apply andb_true_iff in H as [H1 H2].
  destruct x as [|x].
  - exists v. rewrite Nat.add_0_r. split; [reflexivity|]. unfold close in H1. apply andb_true_iff in H1 as [H3 H4].
    split; [now apply Z.leb_le|]. intros L2. apply orb_true_iff in H4 as [H4|H4]; [apply negb_true_iff, Nat.leb_gt in H4; lia|now apply Z.eqb_eq].
  - cbn [nth_error]. rewrite <- Nat.add_succ_comm. apply IH; [exact H2|]. cbn [length] in L. lia.
Qed.
Lemma close_factorial x : (x <= 170)%nat -> exists v, rd factorials_double x = Ok v /\
  Z.abs (v - zfact x) * 10 ^ 39 <= zfact x /\ ((x <= 40)%nat -> v = zfact x).
Proof.
  intros L. destruct (close_spec factorials_double 0 x close_double ltac:(rewrite double_length; lia)) as (v & E & R).
  exists v. unfold rd. rewrite E. split; [reflexivity|exact R].
Qed.
Lemma factorial_real_lemma t x : (x <= factorial_limit t)%nat -> exists v, factorial t x = Ok v /\
  Z.abs (v - zfact x) * 10 ^ 39 <= zfact x /\ ((x <= 40)%nat -> v = zfact x).
Proof.
  intros L. assert (D : t = Double \/ t = LongDouble \/ (t <> Double /\ t <> LongDouble)) by (destruct t; intuition discriminate).
  destruct D as [->|[->|[H1 H2]]].
  - unfold factorial. replace (x <=? factorial_limit Double)%nat with true by (symmetry; apply Nat.leb_le, L).
    exact (close_factorial x L).
  - unfold factorial. replace (x <=? factorial_limit LongDouble)%nat with true by (symmetry; apply Nat.leb_le, L).
    unfold unchecked_factorial, factorials. rewrite long_double_table. exact (close_factorial x L).
  - exists (zfact x). split; [now apply exact_factorial, L; apply exact_tables|]. split; [|reflexivity].
    rewrite Z.sub_diag. cbn [Z.abs]. pose proof (zfact_pos x). lia.
Qed.
Lemma limit_fits t : zfact (factorial_limit t) <=? greatest t = true.
Proof. destruct t; vm_compute; reflexivity. Qed.
Lemma factorial_fits_lemma t x : (x <= factorial_limit t)%nat -> zfact x <= greatest t.
Proof. intros L. pose proof (limit_fits t) as H. apply Z.leb_le in H. pose proof (zfact_mono _ _ L). lia. Qed.
Lemma limit_over t : t <> Int4 -> t <> UInt4 -> t <> LongDouble -> greatest t <? zfact (S (factorial_limit t)) = true.
Proof. intros H1 H2 H3. destruct t; try contradiction; vm_compute; reflexivity. Qed.
Lemma factorial_greatest_lemma t x : t <> Int4 -> t <> UInt4 -> t <> LongDouble ->
  (zfact x <= greatest t -> exists v, factorial t x = Ok v) /\ (greatest t < zfact x -> factorial t x = UB).
Proof.
  intros H1 H2 H3. pose proof (limit_over t H1 H2 H3) as O. apply Z.ltb_lt in O.
  destruct (le_lt_dec x (factorial_limit t)) as [L|L].
  - destruct (factorial_real_lemma t x L) as (v & E & _). split; [intros _; now exists v|]. pose proof (factorial_fits_lemma t x L). lia.
  - pose proof (zfact_mono _ _ L). split; [lia|]. intros _. unfold factorial.
    now replace (x <=? factorial_limit t)%nat with false by (symmetry; apply Nat.leb_gt, L).
Qed.
Lemma factorial_limit_refuted_lemma : exists t x, is_integer t /\ zfact x <= greatest t /\ factorial t x = UB.
Proof. exists Int4, 12%nat. split; [repeat split; discriminate|]. split; [vm_compute; discriminate|reflexivity]. Qed.

(** * Pascal's triangle *)
Lemma zip_add_app a : forall a' b b', length a = length a' -> zip_add (a ++ b) (a' ++ b') = zip_add a a' ++ zip_add b b'.
Proof.
  induction a as [|x a IH]; intros [|y a'] b b' H; cbn [length] in H; try discriminate; [reflexivity|].
  cbn [app zip_add]. f_equal. apply IH. now injection H.
Qed.
Lemma zip_add_length a : forall b, length a = length b -> length (zip_add a b) = length a.
Proof.
  induction a as [|x a IH]; intros [|y b] H; cbn [length] in H; try discriminate; [reflexivity|]. cbn [zip_add length]. f_equal. apply IH. now injection H.
Qed.
Lemma pascal_end m : exists p, length p = m /\ pascal (S m) = p ++ [Z.of_nat (S m); 1].
Proof.
  induction m as [|m (p & L & E)]; [exists []; split; reflexivity|].
  exists (zip_add (0 :: p) (p ++ [Z.of_nat (S m)])). split.
  - rewrite zip_add_length; cbn [length]; [lia|]. rewrite app_length. cbn [length]. lia.
  - change (pascal (S (S m))) with (zip_add (0 :: pascal (S m)) (pascal (S m) ++ [0])). rewrite E.
    change (0 :: p ++ [Z.of_nat (S m); 1]) with ((0 :: p) ++ [Z.of_nat (S m); 1]).
    replace ((p ++ [Z.of_nat (S m); 1]) ++ [0]) with ((p ++ [Z.of_nat (S m)]) ++ [1; 0]) by (rewrite <- !app_assoc; reflexivity).
    rewrite zip_add_app by (rewrite app_length; cbn [length]; lia). cbn [zip_add]. f_equal.
    replace (Z.of_nat (S (S m))) with (Z.of_nat (S m) + 1) by lia. reflexivity.
Qed.
Lemma pascal_init m : exists p, length p = m /\ removelast (pascal (S m)) = p ++ [Z.of_nat (S m)].
Proof.
  destruct (pascal_end m) as (p & L & E). exists p. split; [exact L|]. rewrite E.
  change [Z.of_nat (S m); 1] with ([Z.of_nat (S m)] ++ [1]). rewrite app_assoc. apply removelast_last.
Qed.

(** * The recurrence *)
Lemma dot_app r c : forall B i, (dot (r ++ [c]) B i == dot r B i + inject_Z c * B (i + length r)%nat)%Q.
Proof.
  induction r as [|x r IH]; intros B i; cbn [app dot length].
  - rewrite Nat.add_0_r. ring.
  - rewrite IH, <- Nat.add_succ_comm. ring.
Qed.
Lemma dot_ext r : forall B B' i, (forall j, (j < length r)%nat -> B (i + j)%nat == B' (i + j)%nat)%Q -> (dot r B i == dot r B' i)%Q.
Proof.
  induction r as [|x r IH]; intros B B' i H; cbn [dot]; [reflexivity|].
  rewrite (IH B B' (S i)).
  - pose proof (H 0%nat ltac:(cbn [length]; lia)) as E. rewrite Nat.add_0_r in E. rewrite E. reflexivity.
  - intros j Hj. rewrite !Nat.add_succ_comm. apply H. cbn [length]. lia.
Qed.

(** the numbers by the recurrence *)
Fixpoint blist (n : nat) : list Q :=
  match n with
  | O => [1%Q]
  | S n => let l := blist n in
           l ++ [(- dot (removelast (removelast (pascal (S (S n))))) (fun k => nth k l 0%Q) 0 / inject_Z (Z.of_nat (S (S n))))%Q]
  end.
Lemma blist_length n : length (blist n) = S n.
Proof. induction n as [|n IH]; [reflexivity|]. cbn [blist]. rewrite app_length, IH. cbn [length]. lia. Qed.
Lemma blist_nth k n : (k <= n)%nat -> nth k (blist n) 0%Q = nth k (blist k) 0%Q.
Proof.
  induction 1 as [|n L IH]; [reflexivity|]. cbn [blist]. rewrite app_nth1 by (rewrite blist_length; lia). exact IH.
Qed.
Lemma bernoulli_exists_lemma : exists B, bernoulli_seq B.
Proof.
  exists (fun n => nth n (blist n) 0%Q). split; [reflexivity|]. intros [|m] L; [lia|].
  destruct (pascal_init (S m)) as (p & Lp & E).
  assert (V : nth (S m) (blist (S m)) 0%Q = (- dot p (fun k => nth k (blist m) 0%Q) 0 / inject_Z (Z.of_nat (S (S m))))%Q).
  { cbn [blist]. rewrite E, removelast_last. rewrite app_nth2 by (rewrite blist_length; lia). rewrite blist_length, Nat.sub_diag. reflexivity. }
  assert (X : (dot p (fun n => nth n (blist n) 0%Q) 0 == dot p (fun k => nth k (blist m) 0%Q) 0)%Q).
  { apply dot_ext. intros j Hj. cbn [Nat.add]. rewrite (blist_nth j m) by lia. reflexivity. }
  rewrite E. eapply Qeq_trans; [apply dot_app|]. rewrite Lp, Nat.add_0_l, V. set (a := dot p _ 0) in X |- *. set (b := dot p _ 0) in X |- *.
  rewrite X.
  field. unfold inject_Z, Qeq. cbn [Qnum Qden]. lia.
Qed.

(** * The numbers to B_100 *)
Fixpoint zdot (r l : list Z) : Z := match r, l with c :: r, x :: l => c * x + zdot r l | _, _ => 0 end.
Fixpoint check (k : nat) (r : list Z) : bool :=
  match k with
  | O => true
  | S k => let r' := zip_add (0 :: r) (r ++ [0]) in (zdot (removelast r') bnums =? 0) && check k r'
  end.
Lemma check_ok : check 100 (pascal 1) = true.
Proof. vm_compute. reflexivity. Qed.
Lemma check_spec k : forall m, check k (pascal m) = true -> forall j, (j < k)%nat -> zdot (removelast (pascal (S (m + j)))) bnums = 0.
Proof.
  induction k as [|k IH]; intros m H j L; [lia|]. cbn [check] in H. apply andb_true_iff in H as [H1 H2]. apply Z.eqb_eq in H1.
  destruct j as [|j]; [rewrite Nat.add_0_r; exact H1|]. rewrite <- Nat.add_succ_comm. apply IH; [exact H2|lia].
Qed.
Lemma recurrence m : (1 <= m <= 100)%nat -> zdot (removelast (pascal (S m))) bnums = 0.
Proof. intros L. replace m with (1 + (m - 1))%nat by lia. apply (check_spec 100 1 check_ok). lia. Qed.
Lemma zdot_app r c : forall l, (length r < length l)%nat -> zdot (r ++ [c]) l = zdot r l + c * nth (length r) l 0.
Proof.
  induction r as [|x r IH]; intros [|y l] H; cbn [length] in H; try lia; cbn [app zdot length nth]; [lia|]. rewrite IH by lia. lia.
Qed.
Lemma dot_zdot d B r : forall i l, (length r <= length l)%nat -> (forall j, (j < length r)%nat -> B (i + j)%nat == nth j l 0%Z # d)%Q ->
  (dot r B i == zdot r l # d)%Q.
Proof.
  induction r as [|c r IH]; intros i [|x l] L H; cbn [length] in *; try lia; cbn [dot zdot]; try reflexivity.
  rewrite (IH (S i) l) by (try lia; intros j Hj; rewrite Nat.add_succ_comm; apply (H (S j)); lia).
  pose proof (H 0%nat ltac:(lia)) as E. rewrite Nat.add_0_r in E. cbn [nth] in E. rewrite E.
  unfold Qeq, inject_Z, Qmult, Qplus. cbn [Qnum Qden]. rewrite Pos.mul_1_l, Pos2Z.inj_mul. ring.
Qed.
Lemma bnums_length : length bnums = 101%nat.
Proof. reflexivity. Qed.
Lemma bnums_0 : (nth 0 bnums 0%Z # bden == 1)%Q.
Proof. vm_compute. reflexivity. Qed.
Lemma bernoulli_unique B : bernoulli_seq B -> forall m, (m <= 100)%nat -> (B m == nth m bnums 0%Z # bden)%Q.
Proof.
  intros [H0 HB] m. induction m as [m IH] using lt_wf_ind. intros L. destruct m as [|m]; [rewrite H0, bnums_0; reflexivity|].
  destruct (pascal_init (S m)) as (p & Lp & E). specialize (HB (S m) ltac:(lia)). pose proof (recurrence (S m) ltac:(lia)) as R.
  rewrite E in HB, R. rewrite dot_app, Lp, Nat.add_0_l in HB. rewrite zdot_app, Lp in R by (rewrite Lp, bnums_length; lia).
  rewrite (dot_zdot bden B p 0 bnums) in HB by (try (rewrite Lp, bnums_length; lia); intros j Hj; apply IH; lia).
  set (c := Z.of_nat (S (S m))) in *. set (N := nth (S m) bnums 0) in *. set (S0 := zdot p bnums) in *.
  assert (C : ~ (inject_Z c == 0)%Q) by (unfold inject_Z, Qeq; cbn [Qnum Qden]; lia).
  assert (HS : (S0 # bden == - (inject_Z c * (N # bden)))%Q).
  { replace S0 with (- (c * N)) by lia. unfold Qeq, inject_Z, Qmult, Qopp. cbn [Qnum Qden]. rewrite Pos.mul_1_l. ring. }
  rewrite HS in HB. clearbody c N. clear - HB C.
  assert (X : (inject_Z c * B (S m) == inject_Z c * (N # bden))%Q) by lra.
  apply Qmult_inj_l in X; assumption.
Qed.

(** * The tables of Bernoulli numbers *)
Definition value (t : rtype) (x : nat) : option Q := match bernoulli_number t x with Ok q => Some q | _ => None end.
Definition good (t : rtype) (x : nat) : bool :=
  match value t x with
  | Some q => (x =? 28)%nat || (Qle_bool (Qabs (q - (nth x bnums 0%Z # bden)) * inject_Z (10 ^ 21)) (Qabs (nth x bnums 0%Z # bden)) &&
                         (negb (x <? 44)%nat || Qeq_bool q (nth x bnums 0%Z # bden)))
  | None => false
  end.
Lemma good_ok t : forallb (good t) (seq 0 (S (bernoulli_number_limit t))) = true.
Proof. destruct t; vm_compute; reflexivity. Qed.
Lemma bernoulli_number_lemma B : bernoulli_seq B -> forall t x, (x <= bernoulli_number_limit t)%nat -> x <> 28%nat ->
  exists q, bernoulli_number t x = Ok q /\ (Qabs (q - B x) * inject_Z (10 ^ 21) <= Qabs (B x))%Q /\ ((x < 44)%nat -> q == B x)%Q.
Proof.
  intros HB t x L N. assert (L2 : (x <= 100)%nat) by (destruct t; cbn [bernoulli_number_limit] in L; lia).
  pose proof (bernoulli_unique B HB x L2) as E. pose proof (good_ok t) as G. rewrite forallb_forall in G. specialize (G x ltac:(apply in_seq; lia)).
  unfold good, value in G. destruct (bernoulli_number t x) as [q| |]; try discriminate. exists q. split; [reflexivity|].
  replace (x =? 28)%nat with false in G by (symmetry; now apply Nat.eqb_neq). cbn [orb] in G. apply andb_true_iff in G as [G1 G2]. split.
  - rewrite E. now apply Qle_bool_iff.
  - intros L3. rewrite E. apply orb_true_iff in G2 as [G2|G2]; [apply negb_true_iff, Nat.ltb_ge in G2; lia|now apply Qeq_bool_iff].
Qed.
Lemma bernoulli_beyond_lemma t x : (bernoulli_number_limit t < x)%nat -> bernoulli_number t x = UB.
Proof. intros L. unfold bernoulli_number. now replace (x <=? bernoulli_number_limit t)%nat with false by (symmetry; apply Nat.leb_gt, L). Qed.
Definition bad (t : rtype) : bool :=
  match value t 28 with Some q => Qle_bool (Qabs q * inject_Z 100) (Qabs (nth 28 bnums 0%Z # bden)) | None => false end.
Lemma bad_ok t : bad t = true.
Proof. destruct t; vm_compute; reflexivity. Qed.
Lemma bernoulli_28_lemma B : bernoulli_seq B -> forall t, exists q, bernoulli_number t 28 = Ok q /\ (Qabs q * inject_Z 100 <= Qabs (B 28%nat))%Q.
Proof.
  intros HB t. pose proof (bernoulli_unique B HB 28 ltac:(lia)) as E. pose proof (bad_ok t) as G. unfold bad, value in G.
  destruct (bernoulli_number t 28) as [q| |]; try discriminate. exists q. split; [reflexivity|]. rewrite E. now apply Qle_bool_iff.
Qed.
