(** Proofs about folds, monotonicity and sampling. *)
From Coq Require Import List Arith Bool ZArith Lia Permutation Sorted ZifyBool ZifyNat.
From Verif Require Import Base BaseProof SearchModel SearchSpec SearchProof OrderModel OrderSpec OrderProof OrderProof2 ListFacts
  MutModel MutSpec MutProof FixModel FixSpec SmpModel SmpSpec.
Import ListNotations.

(** ** Folds *)
Lemma loop_S {S} (halt : S -> res (option S)) step k s : loop halt step (Datatypes.S k) s =
  (h <- halt s ;; match h with Some s' => Ok s' | None => s1 <- step s ;; loop halt step k s1 end).
Proof. reflexivity. Qed.

Lemma fold_loop {A T} (op : T -> A -> T) (go : T -> bool) (l : list A) last : forall n first acc,
  last - first = n -> valid l first last ->
  exists k, k <= n /\
    loop (stop (fun s : nat * T => (fst s =? last) || negb (go (snd s))))
      (fun s => x <- rd l (fst s) ;; Ok (S (fst s), op (snd s) x)) (S n) (first, acc)
    = Ok (first + k, fold_left op (firstn k (slice l first last)) acc) /\
    (forall j, j < k -> go (fold_left op (firstn j (slice l first last)) acc) = true) /\
    (k < n -> go (fold_left op (firstn k (slice l first last)) acc) = false).
Proof.
  induction n as [|n IH]; intros first acc Hn [V1 V2].
  - exists 0. split; [lia|]. rewrite loop_S. unfold stop at 1. cbn [fst snd bind].
    replace (first =? last) with true by (symmetry; apply Nat.eqb_eq; lia). cbn [orb].
    rewrite Nat.add_0_r. cbn [firstn fold_left]. repeat split; intros; lia.
  - rewrite loop_S. unfold stop at 1. cbn [fst snd bind].
    destruct (Nat.eqb_spec first last) as [E|E]; [lia|]. cbn [orb].
    destruct (go acc) eqn:Eg; cbn [negb].
    + destruct (nth_error_ex l first ltac:(lia)) as [x Hx]. unfold rd at 1. rewrite Hx. cbn [bind].
      destruct (IH (S first) (op acc x)) as (k & K1 & K2 & K3 & K4); [lia|split; lia|].
      exists (S k). split; [lia|]. rewrite (slice_cons l first last x) by (auto; lia). cbn [firstn fold_left].
      split; [rewrite K2; f_equal; f_equal; lia|]. split.
      * intros [|j] Hj; [exact Eg|]. cbn [firstn fold_left]. apply K3. lia.
      * intros H. apply K4. lia.
    + exists 0. cbn [firstn fold_left]. split; [lia|]. rewrite Nat.add_0_r. repeat split; intros; [lia|exact Eg].
Qed.

Lemma fold_dbl {A T} (op : T -> A -> T) (go : T -> bool) (l : list A) d first last acc :
  valid l first last -> depth_bound (last - first) <= d ->
  exists s, dbl (stop (fun s : nat * T => (fst s =? last) || negb (go (snd s))))
      (fun s => x <- rd l (fst s) ;; Ok (S (fst s), op (snd s) x)) d (first, acc) 1 = Ok s /\
    folded_while op go (slice l first last) acc (snd s).
Proof.
  intros V Hd. destruct (fold_loop op go l last _ first acc eq_refl V) as (k & K1 & K2 & K3 & K4).
  eexists. split.
  - apply (dbl_stop_correct _ _ _ _ _ _ K2). unfold depth_bound in Hd.
    destruct (last - first) as [|n] eqn:E; [cbn; lia|].
    rewrite Nat.log2_up_eqn by lia. cbn [Nat.pred]. lia.
  - cbn [snd]. exists k. assert (L : length (slice l first last) = last - first) by (apply slice_length; apply V).
    rewrite L. repeat split; auto.
Qed.

Lemma fold_while_correct_lemma {A T} (op : T -> A -> T) (pred : T -> bool) (l : list A) d first last init :
  valid l first last -> depth_bound (last - first) <= d ->
  exists r, fold_while d l first last init op pred = Ok r /\ folded_while op pred (slice l first last) init r.
Proof.
  intros V Hd. destruct (fold_dbl op pred l d first last init V Hd) as (s & E & H).
  exists (snd s). unfold fold_while. rewrite E. auto.
Qed.

Lemma fold_until_correct_lemma {A T} (op : T -> A -> T) (pred : T -> bool) (l : list A) d first last init :
  valid l first last -> depth_bound (last - first) <= d ->
  exists r, fold_until d l first last init op pred = Ok r /\
    folded_while op (fun a => negb (pred a)) (slice l first last) init r.
Proof.
  intros V Hd. destruct (fold_dbl op (fun a => negb (pred a)) l d first last init V Hd) as (s & E & H).
  exists (snd s). unfold fold_until. split; [|exact H].
  assert (X : forall d s n,
    dbl (stop (fun s : nat * T => (fst s =? last) || negb (negb (pred (snd s)))))
      (fun s => x <- rd l (fst s) ;; Ok (S (fst s), op (snd s) x)) d s n =
    dbl (stop (fun s : nat * T => (fst s =? last) || pred (snd s)))
      (fun s => x <- rd l (fst s) ;; Ok (S (fst s), op (snd s) x)) d s n).
  { assert (Y : forall d s n,
      dbl_1 (stop (fun s : nat * T => (fst s =? last) || negb (negb (pred (snd s)))))
        (fun s => x <- rd l (fst s) ;; Ok (S (fst s), op (snd s) x)) d s n =
      dbl_1 (stop (fun s : nat * T => (fst s =? last) || pred (snd s)))
        (fun s => x <- rd l (fst s) ;; Ok (S (fst s), op (snd s) x)) d s n).
    { induction d0 as [|d0 IH]; intros s0 n; [reflexivity|]. cbn [dbl_1]. unfold stop at 1 4. rewrite negb_involutive.
      cbn [bind]. destruct ((fst s0 =? last) || pred (snd s0)); [reflexivity|]. destruct (n =? 1); [reflexivity|].
      rewrite IH. destruct (dbl_1 _ _ d0 s0 (n / 2)); cbn [bind]; auto. }
    induction d0 as [|d0 IH]; intros s0 n; [reflexivity|]. cbn [dbl]. unfold stop at 1 4. rewrite negb_involutive.
    cbn [bind]. destruct ((fst s0 =? last) || pred (snd s0)); [reflexivity|]. rewrite Y.
    destruct (dbl_1 _ _ d0 s0 n); cbn [bind]; auto. }
  rewrite <- X, E. reflexivity.
Qed.

(** ** Monotonicity *)
Lemma sorted_monotone (comp : Z -> Z -> bool) (R : Z -> Z -> Prop) (l : list Z) first last :
  (forall x y, comp y x = false <-> R x y) -> (forall x y z, R x y -> R y z -> R x z) ->
  valid l first last ->
  (sorted_range comp l first last <-> monotone R l first last).
Proof.
  intros HR HT [V1 V2]. split.
  - intros H i j x y Hi Hij Hj Ex Ey.
    remember (j - i - 1) as n eqn:En. revert j y Hij Hj Ey En. induction n as [|n IH]; intros j y Hij Hj Ey En.
    + assert (j = S i) as -> by lia. apply HR. destruct (comp y x) eqn:E; [|reflexivity].
      exfalso. apply (H i); [lia|lia|]. exists y, x. auto.
    + destruct (nth_error_ex l (j - 1) ltac:(lia)) as [z Ez].
      apply HT with z; [apply (IH (j - 1)); auto; lia|]. apply HR. destruct (comp y z) eqn:E; [|reflexivity].
      exfalso. apply (H (j - 1)); [lia|lia|]. exists y, z. replace (S (j - 1)) with j by lia. auto.
  - intros H i Hi Hl (y & x & Ey & Ex & E).
    assert (comp y x = false) as X by (apply HR; apply (H i (S i)); auto; lia). congruence.
Qed.

Lemma is_increasing_correct_lemma c d (l : list Z) first last :
  valid l first last -> depth_bound (last - first) <= d ->
  exists b, is_increasing c d l first last = Ok b /\ (b = true <-> monotone Z.le l first last).
Proof.
  intros V Hd. destruct (is_sorted_correct_lemma Z.ltb c d l first last V Hd) as (b & E & H).
  exists b. split; [exact E|]. rewrite H. apply sorted_monotone; auto; intros; lia.
Qed.
Lemma is_decreasing_correct_lemma c d (l : list Z) first last :
  valid l first last -> depth_bound (last - first) <= d ->
  exists b, is_decreasing c d l first last = Ok b /\ (b = true <-> monotone Z.ge l first last).
Proof.
  intros V Hd. destruct (is_sorted_correct_lemma Z.gtb c d l first last V Hd) as (b & E & H).
  exists b. split; [exact E|]. rewrite H. apply sorted_monotone; auto; intros; lia.
Qed.
Lemma is_strictly_increasing_correct_lemma c d (l : list Z) first last :
  valid l first last -> depth_bound (last - first) <= d ->
  exists b, is_strictly_increasing c d l first last = Ok b /\ (b = true <-> monotone Z.lt l first last).
Proof.
  intros V Hd. destruct (is_sorted_correct_lemma Z.leb c d l first last V Hd) as (b & E & H).
  exists b. split; [exact E|]. rewrite H. apply sorted_monotone; auto; intros; lia.
Qed.
Lemma is_strictly_decreasing_correct_lemma c d (l : list Z) first last :
  valid l first last -> depth_bound (last - first) <= d ->
  exists b, is_strictly_decreasing c d l first last = Ok b /\ (b = true <-> monotone Z.gt l first last).
Proof.
  intros V Hd. destruct (is_sorted_correct_lemma Z.geb c d l first last V Hd) as (b & E & H).
  exists b. split; [exact E|]. rewrite H. apply sorted_monotone; auto; intros; lia.
Qed.
