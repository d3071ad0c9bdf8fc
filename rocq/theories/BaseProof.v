(** Generic facts about the recursion shapes of Base.v. *)
From Coq Require Import List Arith Bool ZArith Lia.
From Coq Require Import ZifyBool ZifyNat.
From Verif Require Import Base.
Import ListNotations.
Ltac Zify.zify_post_hook ::= Z.div_mod_to_equations.

Lemma bind_ok {A B} (m : res A) (f : A -> res B) b :
  bind m f = Ok b -> exists a, m = Ok a /\ f a = Ok b.
Proof. destruct m; cbn; intros E; try discriminate; eauto. Qed.

Lemma bind_assoc {A B C} (m : res A) (f : A -> res B) (g : B -> res C) :
  bind (bind m f) g = bind m (fun a => bind (f a) g).
Proof. destruct m; reflexivity. Qed.

Lemma log2_half n : 2 <= n -> Nat.log2_up (n - n / 2) < Nat.log2_up n.
Proof.
  intros H.
  assert (Hn : 0 < Nat.log2_up n) by (apply Nat.log2_up_pos; lia).
  destruct (Nat.log2_up_spec n) as [Hlo Hhi]; [lia|].
  apply Nat.lt_le_trans with (S (pred (Nat.log2_up n))); [|lia].
  apply Nat.lt_succ_r.
  destruct (Nat.log2_up n) as [|k] eqn:Ek; [lia|].
  cbn [pred] in *.
  rewrite <- (Nat.log2_up_pow2 k) by lia.
  apply Nat.log2_up_le_mono.
  rewrite Nat.pow_succ_r' in Hhi. lia.
Qed.

Lemma log2_half' n : 2 <= n -> Nat.log2_up (n / 2) < Nat.log2_up n.
Proof.
  intros H.
  apply Nat.le_lt_trans with (Nat.log2_up (n - n/2)); [|now apply log2_half].
  apply Nat.log2_up_le_mono. lia.
Qed.

(** ** The doubling recursion is a while loop *)
Section Doubling.
  Context {S : Type}.
  Variable halt : S -> res (option S).
  Variable step : S -> res S.

  (** [loop k s]: the plain while loop with at most [k] evaluations of the stop
      condition. *)
  Fixpoint loop (k : nat) (s : S) : res S :=
    match k with
    | 0 => Fuel
    | Datatypes.S k' =>
        h <- halt s ;;
        match h with
        | Some s' => Ok s'
        | None => s1 <- step s ;; loop k' s1
        end
    end.

  Fixpoint iterk (k : nat) (s : S) : res S :=
    match k with
    | 0 => Ok s
    | Datatypes.S k' =>
        h <- halt s ;;
        match h with
        | Some s' => Ok s'
        | None => s1 <- step s ;; iterk k' s1
        end
    end.

  Hypothesis idem : forall s s', halt s = Ok (Some s') -> halt s' = Ok (Some s').

  Lemma iterk_halted k s : halt s = Ok (Some s) -> iterk k s = Ok s.
  Proof. intros H. destruct k; cbn; [easy|]. now rewrite H. Qed.

  Lemma iterk_add a b s : iterk (a + b) s = (s1 <- iterk a s ;; iterk b s1).
  Proof.
    revert s. induction a as [|a IH]; intros s; [reflexivity|].
    cbn [Nat.add iterk].
    destruct (halt s) as [[s'|]| |] eqn:Eh; cbn; try reflexivity.
    - now rewrite (iterk_halted b s' (idem _ _ Eh)).
    - destruct (step s) as [s1| |]; cbn; [apply IH|reflexivity..].
  Qed.

  Lemma dbl_1_iterk d : forall s n, 1 <= n -> Nat.log2_up n < d ->
    dbl_1 halt step d s n = iterk n s.
  Proof.
    induction d as [|d IH]; intros s n Hn Hd; [lia|].
    cbn [dbl_1].
    destruct (n =? 1) eqn:E1.
    - apply Nat.eqb_eq in E1. subst n. cbn [iterk].
      destruct (halt s) as [[s'|]| |]; cbn; try reflexivity.
      destruct (step s); reflexivity.
    - apply Nat.eqb_neq in E1.
      assert (H1 := log2_half n ltac:(lia)). assert (H2 := log2_half' n ltac:(lia)).
      destruct (halt s) as [[s'|]| |] eqn:Eh; cbn [bind].
      + destruct n as [|n]; [lia|]. cbn. now rewrite Eh.
      + rewrite IH by lia.
        transitivity (iterk (n / 2 + (n - n / 2)) s); [|f_equal; lia].
        rewrite iterk_add.
        destruct (iterk (n / 2) s); cbn [bind]; [|reflexivity..].
        apply IH; lia.
      + destruct n as [|n]; [lia|]. cbn. now rewrite Eh.
      + destruct n as [|n]; [lia|]. cbn. now rewrite Eh.
  Qed.

  Lemma loop_halted k s sf : loop k s = Ok sf -> halt sf = Ok (Some sf).
  Proof.
    revert s. induction k as [|k IH]; cbn; intros s; [discriminate|].
    destruct (halt s) as [[s'|]| |] eqn:Eh; cbn; try discriminate.
    - intros [= <-]. eauto.
    - destruct (step s); cbn; try discriminate. apply IH.
  Qed.

  Lemma loop_iterk k s sf : loop k s = Ok sf ->
    forall m, iterk m s = Ok sf \/
      (m < k /\ exists s1, iterk m s = Ok s1 /\ loop (k - m) s1 = Ok sf).
  Proof.
    revert s. induction k as [|k IH]; cbn [loop]; intros s Hl m; [discriminate|].
    destruct m as [|m].
    - right. split; [lia|]. exists s. cbn [iterk Nat.sub]. split; [reflexivity|]. exact Hl.
    - cbn [iterk].
      destruct (halt s) as [[s'|]| |] eqn:Eh; cbn in *; try discriminate.
      + left. congruence.
      + destruct (step s) as [s1| |]; cbn in *; try discriminate.
        destruct (IH _ Hl m) as [H|(H&s2&H1&H2)]; [now left|].
        right. split; [lia|]. eauto.
  Qed.

  Lemma dbl_loop j : forall k s sf d,
    loop k s = Ok sf -> forall m, k <= 2 ^ m * (2 ^ j - 1) + 1 -> m + 2 * j + 1 <= d ->
    (m + j + 1 <= d) -> dbl halt step d s (2 ^ m) = Ok sf.
  Proof.
    induction j as [|j IH]; intros k s sf d Hl m Hk Hd Hd'.
    - cbn in Hk. assert (k <= 1) by lia.
      destruct k as [|[|k]]; [discriminate| |lia].
      destruct d as [|d]; [lia|]. cbn in *.
      destruct (halt s) as [[s'|]| |] eqn:Eh; cbn in *; try discriminate; [easy|].
      destruct (step s); discriminate.
    - destruct d as [|d]; [lia|]. cbn [dbl].
      destruct k as [|k]; [discriminate|].
      destruct (halt s) as [[s'|]| |] eqn:Eh.
      1: { cbn in *. rewrite Eh in Hl. cbn in Hl. congruence. }
      2,3: cbn in Hl; rewrite Eh in Hl; discriminate.
      cbn [bind].
      assert (Hp : 1 <= 2 ^ m) by (apply Nat.le_succ_l, Nat.neq_0_lt_0, Nat.pow_nonzero; lia).
      rewrite dbl_1_iterk; [|exact Hp|rewrite Nat.log2_up_pow2 by lia; lia].
      replace (2 ^ m * 2) with (2 ^ (Datatypes.S m)) by (rewrite Nat.pow_succ_r'; lia).
      destruct (loop_iterk _ _ _ Hl (2 ^ m)) as [H|(H&s1&H1&H2)].
      + rewrite H. cbn [bind].
        destruct d as [|d]; [lia|]. cbn [dbl].
        rewrite (loop_halted _ _ _ Hl). reflexivity.
      + rewrite H1. cbn [bind].
        eapply IH; [exact H2| | |]; try lia.
        rewrite Nat.pow_succ_r' in Hk. rewrite Nat.pow_succ_r'. nia.
  Qed.

  (** The theorem every doubling instance uses: if the while loop finishes within
      [k] tests of its stop condition, the doubling recursion returns the same
      state within call depth [2 * log2_up k + 1]. *)
  Theorem dbl_correct k s sf d :
    loop k s = Ok sf -> 2 * Nat.log2_up k + 1 <= d -> dbl halt step d s 1 = Ok sf.
  Proof.
    intros Hl Hd.
    change 1 with (2 ^ 0).
    apply (dbl_loop (Nat.log2_up k) k); auto; try lia.
    destruct (Nat.le_gt_cases k 1) as [H|H]; [lia|].
    destruct (Nat.log2_up_spec k H) as [_ H2]. cbn [Nat.pow]. lia.
  Qed.

End Doubling.

Lemma stop_idem {S} (b : S -> bool) s s' :
  stop b s = Ok (Some s') -> stop b s' = Ok (Some s').
Proof. unfold stop. destruct (b s) eqn:E; [|discriminate]. intros [= <-]. now rewrite E. Qed.

(** Doubling with an unchanged-state stop: [loop] as a relation on [stop]. *)
Lemma dbl_stop_correct {S} (b : S -> bool) (step : S -> res S) k s sf d :
  loop (stop b) step k s = Ok sf -> 2 * Nat.log2_up k + 1 <= d ->
  dbl (stop b) step d s 1 = Ok sf.
Proof. apply dbl_correct. exact (stop_idem b). Qed.

Lemma dbl_1_stop_correct {S} (b : S -> bool) (step : S -> res S) k s sf d n :
  loop (stop b) step k s = Ok sf -> k <= n + 1 -> 1 <= n -> Nat.log2_up n < d ->
  dbl_1 (stop b) step d s n = Ok sf.
Proof.
  intros Hl Hk Hn Hd. rewrite dbl_1_iterk; [|exact (stop_idem b)|assumption..].
  destruct (loop_iterk _ _ (stop_idem b) _ _ _ Hl n) as [H|(H&s1&H1&H2)]; [exact H|].
  assert (k = n + 1) by lia. subst k.
  replace (n + 1 - n) with 1 in H2 by lia. cbn in H2.
  rewrite H1. destruct (b s1) eqn:Eh; cbn in H2; [congruence|].
  destruct (step s1); discriminate.
Qed.

(** ** The random-access recursions *)

(** [scan t i n]: first index in [i, i+n) satisfying [t], else [i+n]. *)
Fixpoint scan (t : nat -> bool) (i n : nat) : nat :=
  match n with
  | 0 => i
  | S n' => if t i then i else scan t (S i) n'
  end.

Lemma scan_bounds t n : forall i, i <= scan t i n <= i + n.
Proof. induction n as [|n IH]; intros i; cbn; [lia|]. destruct (t i); [lia|]. specialize (IH (S i)). lia. Qed.

Lemma scan_add t a : forall i b, scan t i (a + b) =
  if scan t i a =? i + a then scan t (i + a) b else scan t i a.
Proof.
  induction a as [|a IH]; intros i b; cbn [Nat.add scan].
  - replace (i + 0) with i by lia. now rewrite Nat.eqb_refl.
  - destruct (t i) eqn:E.
    + replace (i =? i + S a) with false by (symmetry; apply Nat.eqb_neq; lia). reflexivity.
    + rewrite IH. replace (S i + a) with (i + S a) by lia. reflexivity.
Qed.

Lemma scan_spec t n : forall i,
  let r := scan t i n in
  i <= r <= i + n /\ (forall j, i <= j < r -> t j = false) /\ (r < i + n -> t r = true).
Proof.
  induction n as [|n IH]; intros i; cbn.
  - repeat split; try lia.
  - destruct (t i) eqn:E.
    + repeat split; try lia. easy.
    + destruct (IH (S i)) as (H1&H2&H3). repeat split; try lia.
      * intros j Hj. destruct (Nat.eq_dec j i) as [->|]; [exact E|]. apply H2. lia.
      * intros Hr. apply H3. lia.
Qed.

Lemma scan_unique t i n r :
  i <= r <= i + n -> (forall j, i <= j < r -> t j = false) -> (r < i + n -> t r = true) ->
  scan t i n = r.
Proof.
  intros H1 H2 H3. destruct (scan_spec t n i) as (G1&G2&G3).
  set (s := scan t i n) in *.
  destruct (Nat.lt_trichotomy s r) as [H|[H|H]]; [|exact H|].
  - specialize (G3 ltac:(lia)). rewrite H2 in G3 by lia. discriminate.
  - specialize (H3 ltac:(lia)). rewrite G2 in H3 by lia. discriminate.
Qed.

Lemma scan_ext t t' n : forall i, (forall j, i <= j < i + n -> t j = t' j) -> scan t i n = scan t' i n.
Proof.
  induction n as [|n IH]; intros i H; cbn; [easy|].
  rewrite <- (H i) by lia. destruct (t i); [easy|]. apply IH. intros j Hj. apply H. lia.
Qed.

Lemma ra_search_ok (test : nat -> nat -> res bool) (t : nat -> bool) d :
  forall first last found,
  first < last ->
  (forall i, first <= i < last -> test i (S i) = Ok (t i)) ->
  Nat.log2_up (last - first) < d ->
  ra_search d test first last ((last - first) / 2) found =
    Ok (if found =? first then scan t first (last - first) else found).
Proof.
  induction d as [|d IH]; intros first last found Hl Ht Hd; [lia|].
  cbn [ra_search].
  destruct (found =? first) eqn:Ef; cbn [negb]; [|reflexivity].
  apply Nat.eqb_eq in Ef. subst found.
  destruct ((last - first) / 2 =? 0) eqn:Ep.
  - apply Nat.eqb_eq in Ep. assert (last = S first) by lia. subst last.
    rewrite Ht by lia. cbn [bind].
    replace (S first - first) with 1 by lia. cbn. reflexivity.
  - apply Nat.eqb_neq in Ep.
    set (n := last - first) in *.
    assert (H1 := log2_half n ltac:(lia)). assert (H2 := log2_half' n ltac:(lia)).
    specialize (IH) as IH1.
    replace (n / 2 / 2) with ((first + n / 2 - first) / 2) by (f_equal; lia).
    rewrite IH by (try lia; try (intros; apply Ht; lia); replace (first + n/2 - first) with (n/2) by lia; lia).
    rewrite Nat.eqb_refl. cbn [bind].
    replace (n - n / 2) with (last - (first + n / 2)) by lia.
    rewrite IH by (try lia; try (intros; apply Ht; lia); replace (last - (first + n/2)) with (n - n/2) by lia; lia).
    replace (first + n / 2 - first) with (n / 2) by lia.
    replace (last - (first + n / 2)) with (n - n / 2) by lia.
    transitivity (Ok (scan t first (n / 2 + (n - n / 2)))); [|do 2 f_equal; lia].
    rewrite scan_add. reflexivity.
Qed.

Lemma ra_and_ok (test : nat -> nat -> res bool) (t : nat -> bool) d :
  forall first last,
  first < last ->
  (forall i, first <= i < last -> test i (S i) = Ok (t i)) ->
  Nat.log2_up (last - first) < d ->
  ra_and d test first last ((last - first) / 2) =
    Ok (forallb t (seq first (last - first))).
Proof.
  induction d as [|d IH]; intros first last Hl Ht Hd; [lia|].
  cbn [ra_and].
  destruct ((last - first) / 2 =? 0) eqn:Ep.
  - apply Nat.eqb_eq in Ep. assert (last = S first) by lia. subst last.
    rewrite Ht by lia. replace (S first - first) with 1 by lia. cbn. now rewrite andb_true_r.
  - apply Nat.eqb_neq in Ep.
    set (n := last - first) in *.
    assert (H1 := log2_half n ltac:(lia)). assert (H2 := log2_half' n ltac:(lia)).
    replace (n / 2 / 2) with ((first + n / 2 - first) / 2) by (f_equal; lia).
    rewrite IH by (try lia; try (intros; apply Ht; lia); replace (first + n/2 - first) with (n/2) by lia; lia).
    cbn [bind].
    replace (n - n / 2) with (last - (first + n / 2)) by lia.
    rewrite IH by (try lia; try (intros; apply Ht; lia); replace (last - (first + n/2)) with (n - n/2) by lia; lia).
    replace (first + n / 2 - first) with (n / 2) by lia.
    replace (last - (first + n / 2)) with (n - n / 2) by lia.
    transitivity (Ok (forallb t (seq first (n / 2 + (n - n / 2))))); [|do 3 f_equal; lia].
    rewrite seq_app, forallb_app. destruct (forallb t (seq first (n / 2))); reflexivity.
Qed.

Lemma ra_or_ok (test : nat -> nat -> res bool) (t : nat -> bool) d :
  forall first last,
  first < last ->
  (forall i, first <= i < last -> test i (S i) = Ok (t i)) ->
  Nat.log2_up (last - first) < d ->
  ra_or d test first last ((last - first) / 2) =
    Ok (existsb t (seq first (last - first))).
Proof.
  induction d as [|d IH]; intros first last Hl Ht Hd; [lia|].
  cbn [ra_or].
  destruct ((last - first) / 2 =? 0) eqn:Ep.
  - apply Nat.eqb_eq in Ep. assert (last = S first) by lia. subst last.
    rewrite Ht by lia. replace (S first - first) with 1 by lia. cbn. now rewrite orb_false_r.
  - apply Nat.eqb_neq in Ep.
    set (n := last - first) in *.
    assert (H1 := log2_half n ltac:(lia)). assert (H2 := log2_half' n ltac:(lia)).
    replace (n / 2 / 2) with ((first + n / 2 - first) / 2) by (f_equal; lia).
    rewrite IH by (try lia; try (intros; apply Ht; lia); replace (first + n/2 - first) with (n/2) by lia; lia).
    cbn [bind].
    replace (n - n / 2) with (last - (first + n / 2)) by lia.
    rewrite IH by (try lia; try (intros; apply Ht; lia); replace (last - (first + n/2)) with (n - n/2) by lia; lia).
    replace (first + n / 2 - first) with (n / 2) by lia.
    replace (last - (first + n / 2)) with (n - n / 2) by lia.
    transitivity (Ok (existsb t (seq first (n / 2 + (n - n / 2))))); [|do 3 f_equal; lia].
    rewrite seq_app, existsb_app. destruct (existsb t (seq first (n / 2))); reflexivity.
Qed.
