(** Proofs about the search models. *)
From Coq Require Import List Arith Bool ZArith Lia.
From Coq Require Import ZifyBool ZifyNat.
From Verif Require Import Base BaseProof SearchModel SearchSpec.
Import ListNotations.
Ltac Zify.zify_post_hook ::= Z.div_mod_to_equations.

Definition tst {A} (p : A -> bool) (l : list A) (i : nat) : bool :=
  match nth_error l i with Some x => p x | None => false end.

Definition relb {A B} (p : A -> B -> bool) (l1 : list A) i (l2 : list B) j : bool :=
  match nth_error l1 i, nth_error l2 j with
  | Some x, Some y => p x y
  | _, _ => false
  end.

Lemma nth_error_ex {A} (l : list A) i : i < length l -> exists x, nth_error l i = Some x.
Proof. intros H. destruct (nth_error l i) eqn:E; eauto. apply nth_error_None in E. lia. Qed.

Lemma rd_ex {A} (l : list A) i : i < length l -> exists x, nth_error l i = Some x /\ rd l i = Ok x.
Proof. intros H. destruct (nth_error_ex l i H) as [x Hx]. exists x. unfold rd. now rewrite Hx. Qed.

Lemma rd_tst {A B} (p : A -> bool) l i (f : bool -> B) : i < length l ->
  (x <- rd l i ;; Ok (f (p x))) = Ok (f (tst p l i)).
Proof. intros H. destruct (rd_ex l i H) as (x&Hx&Hr). rewrite Hr. unfold tst. now rewrite Hx. Qed.

Lemma rd_relb {A B C} (p : A -> B -> bool) l1 i l2 j (f : bool -> C) :
  i < length l1 -> j < length l2 ->
  (x <- rd l1 i ;; y <- rd l2 j ;; Ok (f (p x y))) = Ok (f (relb p l1 i l2 j)).
Proof.
  intros H1 H2. destruct (rd_ex l1 i H1) as (x&Hx&Hr). destruct (rd_ex l2 j H2) as (y&Hy&Hs).
  rewrite Hr, Hs. unfold relb. now rewrite Hx, Hy.
Qed.

Lemma tst_sat {A} (p : A -> bool) l i : tst p l i = true <-> sat p l i.
Proof.
  unfold tst, sat. destruct (nth_error l i) as [x|]; split.
  - eauto.
  - intros (y&[= <-]&H). exact H.
  - discriminate.
  - intros (y&[=]&_).
Qed.

Lemma tst_neg {A} (p : A -> bool) l i : i < length l -> tst (fun x => negb (p x)) l i = negb (tst p l i).
Proof. intros H. destruct (nth_error_ex l i H) as [x Hx]. unfold tst. now rewrite Hx. Qed.

Lemma relb_rel {A B} (p : A -> B -> bool) l1 i l2 j : relb p l1 i l2 j = true <-> rel p l1 i l2 j.
Proof.
  unfold relb, rel. destruct (nth_error l1 i) as [x|]; [destruct (nth_error l2 j) as [y|]|]; split.
  - eauto.
  - intros (x'&y'&[= <-]&[= <-]&H). exact H.
  - discriminate.
  - intros (x'&y'&_&[=]&_).
  - discriminate.
  - intros (x'&y'&[=]&_).
Qed.

Lemma is_first_scan (P : nat -> Prop) t first last : first <= last ->
  (forall j, first <= j < last -> (t j = true <-> P j)) ->
  is_first P first last (scan t first (last - first)).
Proof.
  intros Hle Ht. destruct (scan_spec t (last - first) first) as (H1&H2&H3).
  unfold is_first. replace (first + (last - first)) with last in * by lia.
  split; [lia|]. split.
  - intros j Hj HP. rewrite <- Ht in HP by lia. rewrite H2 in HP by lia. discriminate.
  - intros Hr. apply Ht; [lia|]. apply H3. exact Hr.
Qed.

(** *** depth arithmetic *)
Lemma log2_up_le n : Nat.log2_up n <= Nat.log2 n + 1.
Proof. pose proof (Nat.le_log2_up_succ_log2 n). lia. Qed.

Lemma depth_ra n d : depth_bound n <= d -> Nat.log2_up n < d.
Proof. unfold depth_bound. pose proof (log2_up_le n). lia. Qed.

Lemma depth_dbl n d : depth_bound n <= d -> 2 * Nat.log2_up (S n) + 1 <= d.
Proof.
  unfold depth_bound. intros H. destruct n as [|n]; [cbn; lia|].
  rewrite Nat.log2_up_eqn by lia. cbn [pred]. lia.
Qed.

Lemma depth_mono n m : n <= m -> depth_bound n <= depth_bound m.
Proof. unfold depth_bound. intros H. pose proof (Nat.log2_le_mono _ _ H). lia. Qed.

Lemma loop_mono {S} (halt : S -> res (option S)) step k : forall s sf k',
  loop halt step k s = Ok sf -> k <= k' -> loop halt step k' s = Ok sf.
Proof.
  induction k as [|k IH]; intros s sf k' H Hk; [discriminate|].
  destruct k' as [|k']; [lia|]. cbn in *.
  destruct (halt s) as [[s'|]| |]; cbn in *; try discriminate; [exact H|].
  destruct (step s); cbn in *; try discriminate. apply IH; [exact H|lia].
Qed.

(** *** find-like loops *)
Lemma loop_find (step : nat * bool -> res (nat * bool)) (t : nat -> bool) last n : forall i,
  last = i + n ->
  (forall j, i <= j < last -> step (j, false) = Ok (if t j then (j, true) else (S j, false))) ->
  exists b, loop (stop (fun s : nat * bool => snd s || (fst s =? last))) step (S n) (i, false)
    = Ok (scan t i n, b) /\ (b = true <-> scan t i n < last).
Proof.
  induction n as [|n IH]; intros i Hl Hs.
  - exists false. cbn. replace (i =? last) with true by (symmetry; apply Nat.eqb_eq; lia).
    cbn. split; [reflexivity|]. split; [discriminate|lia].
  - remember (S n) as n1. cbn [loop stop bind snd fst orb]. subst n1.
    unfold stop at 1. cbn [fst snd orb bind].
    replace (i =? last) with false by (symmetry; apply Nat.eqb_neq; lia). cbn [bind].
    rewrite Hs by lia. cbn [bind scan].
    destruct (t i) eqn:Et.
    + exists true. cbn. split; [reflexivity|]. split; [lia|reflexivity].
    + apply IH; [lia|]. intros j Hj. apply Hs. lia.
Qed.

Section OneRange.
  Context {A : Type}.
  Implicit Types (l : list A) (p : A -> bool).

  Lemma find_if_in_scan d l first last p : valid l first last -> depth_bound (last - first) <= d ->
    find_if_in d l first last p = Ok (scan (tst p l) first (last - first)).
  Proof.
    intros [H1 H2] Hd. unfold find_if_in.
    edestruct loop_find with (t := tst p l) (i := first) (n := last - first) (last := last) as (b&Hl&_);
      [lia| |erewrite dbl_stop_correct; [|exact Hl|apply depth_dbl, Hd]; reflexivity].
    intros j Hj. cbn [fst].
    apply (rd_tst p l j (fun b : bool => if b then (j, true) else (S j, false))). lia.
  Qed.

  Lemma find_if_ra_scan d l first last p : valid l first last -> depth_bound (last - first) <= d ->
    find_if_ra d l first last p = Ok (scan (tst p l) first (last - first)).
  Proof.
    intros [H1 H2] Hd. unfold find_if_ra.
    destruct (first =? last) eqn:E.
    - apply Nat.eqb_eq in E. subst. now rewrite Nat.sub_diag.
    - apply Nat.eqb_neq in E. rewrite ra_search_ok with (t := tst p l); try lia.
      + now rewrite Nat.eqb_refl.
      + intros i Hi. apply (rd_tst p l i (fun b => b)). lia.
      + now apply depth_ra.
  Qed.

  Lemma find_if_scan c d l first last p : valid l first last -> depth_bound (last - first) <= d ->
    find_if c d l first last p = Ok (scan (tst p l) first (last - first)).
  Proof. destruct c; [apply find_if_ra_scan|apply find_if_in_scan]. Qed.

  Lemma find_if_correct_lemma c d l first last p :
    valid l first last -> depth_bound (last - first) <= d ->
    exists r, find_if c d l first last p = Ok r /\ is_first (sat p l) first last r.
  Proof.
    intros Hv Hd. rewrite find_if_scan by assumption. eexists. split; [reflexivity|].
    apply is_first_scan; [apply Hv|]. intros j _. apply tst_sat.
  Qed.

  Lemma find_if_not_eq c d l first last p :
    find_if_not c d l first last p = find_if c d l first last (fun x => negb (p x)).
  Proof. reflexivity. Qed.

  Lemma find_if_not_correct_lemma c d l first last p :
    valid l first last -> depth_bound (last - first) <= d ->
    exists r, find_if_not c d l first last p = Ok r /\
      is_first (fun i => ~ sat p l i) first last r.
  Proof.
    intros Hv Hd. rewrite find_if_not_eq, find_if_scan by assumption. eexists. split; [reflexivity|].
    apply is_first_scan; [apply Hv|]. intros j Hj. destruct Hv.
    rewrite tst_neg, <- tst_sat by lia. destruct (tst p l j); cbn; split; congruence.
  Qed.

  Lemma find_correct_lemma {B} (eqb : A -> B -> bool) c d l first last v :
    valid l first last -> depth_bound (last - first) <= d ->
    exists r, find eqb c d l first last v = Ok r /\
      is_first (sat (fun x => eqb x v) l) first last r.
  Proof.
    replace (find eqb c d l first last v) with (find_if c d l first last (fun x => eqb x v))
      by reflexivity.
    apply find_if_correct_lemma.
  Qed.

  (** *** all_of / any_of / none_of *)
  Lemma loop_all (step : nat * bool -> res (nat * bool)) (t : nat -> bool) last n : forall i,
    last = i + n ->
    (forall j, i <= j < last -> step (j, true) = Ok (if t j then (S j, true) else (j, false))) ->
    exists k, loop (stop (fun s : nat * bool => negb (snd s) || (fst s =? last))) step (S n) (i, true)
      = Ok (k, forallb t (seq i n)).
  Proof.
    induction n as [|n IH]; intros i Hl Hs.
    - exists i. cbn. replace (i =? last) with true by (symmetry; apply Nat.eqb_eq; lia). reflexivity.
    - remember (S n) as n1. cbn [loop]. subst n1.
      unfold stop at 1. cbn [fst snd negb orb bind].
      replace (i =? last) with false by (symmetry; apply Nat.eqb_neq; lia). cbn [bind].
      rewrite Hs by lia. cbn [bind seq forallb].
      destruct (t i) eqn:Et; cbn [andb].
      + apply IH; [lia|]. intros j Hj. apply Hs. lia.
      + exists i. reflexivity.
  Qed.

  Lemma all_of_forallb c d l first last p : valid l first last -> depth_bound (last - first) <= d ->
    all_of c d l first last p = Ok (forallb (tst p l) (seq first (last - first))).
  Proof.
    intros [H1 H2] Hd. unfold all_of. destruct c.
    - destruct (first =? last) eqn:E.
      + apply Nat.eqb_eq in E. subst. now rewrite Nat.sub_diag.
      + apply Nat.eqb_neq in E. apply ra_and_ok; [lia| |now apply depth_ra].
        intros i Hi. apply (rd_tst p l i (fun b => b)). lia.
    - edestruct loop_all with (t := tst p l) (i := first) (n := last - first) (last := last) as (b&Hl);
      [lia| |erewrite dbl_stop_correct; [|exact Hl|apply depth_dbl, Hd]; reflexivity].
      intros j Hj. cbn [fst].
      apply (rd_tst p l j (fun b : bool => if b then (S j, true) else (j, false))). lia.
  Qed.

  Lemma forallb_seq_iff t first n :
    forallb t (seq first n) = true <-> forall i, first <= i < first + n -> t i = true.
  Proof.
    rewrite forallb_forall. split; intros H i Hi.
    - apply H. apply in_seq. lia.
    - apply in_seq in Hi. apply H. lia.
  Qed.

  Lemma all_of_correct_lemma c d l first last p :
    valid l first last -> depth_bound (last - first) <= d ->
    exists b, all_of c d l first last p = Ok b /\
      (b = true <-> forall i, first <= i < last -> sat p l i).
  Proof.
    intros Hv Hd. rewrite all_of_forallb by assumption. eexists. split; [reflexivity|].
    rewrite forallb_seq_iff. destruct Hv. replace (first + (last - first)) with last by lia.
    split; intros H' i Hi; apply tst_sat; auto.
  Qed.

  Lemma none_of_correct_lemma c d l first last p :
    valid l first last -> depth_bound (last - first) <= d ->
    exists b, none_of c d l first last p = Ok b /\
      (b = true <-> forall i, first <= i < last -> ~ sat p l i).
  Proof.
    intros Hv Hd.
    replace (none_of c d l first last p) with (all_of c d l first last (fun x => negb (p x))) by reflexivity.
    rewrite all_of_forallb by assumption. eexists. split; [reflexivity|].
    rewrite forallb_seq_iff. destruct Hv. replace (first + (last - first)) with last by lia.
    split; intros H' i Hi; specialize (H' i Hi).
    - rewrite tst_neg in H' by lia. rewrite <- tst_sat. destruct (tst p l i); [discriminate|congruence].
    - rewrite tst_neg by lia. rewrite <- tst_sat in H'. destruct (tst p l i); [exfalso; now apply H'|reflexivity].
  Qed.

  Lemma scan_existsb t n : forall i, existsb t (seq i n) = (scan t i n <? i + n).
  Proof.
    induction n as [|n IH]; intros i; cbn [seq existsb scan].
    - symmetry. apply Nat.ltb_ge. lia.
    - destruct (t i); cbn [orb].
      + symmetry. apply Nat.ltb_lt. lia.
      + rewrite IH. f_equal. lia.
  Qed.

  Lemma any_of_existsb c d l first last p : valid l first last -> depth_bound (last - first) <= d ->
    any_of c d l first last p = Ok (existsb (tst p l) (seq first (last - first))).
  Proof.
    intros [H1 H2] Hd. unfold any_of. destruct c.
    - destruct (first =? last) eqn:E.
      + apply Nat.eqb_eq in E. subst. now rewrite Nat.sub_diag.
      + apply Nat.eqb_neq in E. apply ra_or_ok; [lia| |now apply depth_ra].
        intros i Hi. apply (rd_tst p l i (fun b => b)). lia.
    - edestruct loop_find with (t := tst p l) (i := first) (n := last - first) (last := last) as (b&Hl&Hb);
      [lia| |erewrite dbl_stop_correct; [|exact Hl|apply depth_dbl, Hd]].
      + intros j Hj. cbn [fst].
        apply (rd_tst p l j (fun b : bool => if b then (j, true) else (S j, false))). lia.
      + cbn [bind snd]. rewrite scan_existsb. f_equal.
        apply eq_true_iff_eq. rewrite Hb, Nat.ltb_lt. lia.
  Qed.

  Lemma any_of_correct_lemma c d l first last p :
    valid l first last -> depth_bound (last - first) <= d ->
    exists b, any_of c d l first last p = Ok b /\
      (b = true <-> exists i, first <= i < last /\ sat p l i).
  Proof.
    intros Hv Hd. rewrite any_of_existsb by assumption. eexists. split; [reflexivity|].
    rewrite existsb_exists. destruct Hv.
    split.
    - intros (i&Hi&H'). apply in_seq in Hi. exists i. split; [lia|]. now apply tst_sat.
    - intros (i&Hi&H'). exists i. split; [apply in_seq; lia|]. now apply tst_sat.
  Qed.

  (** *** counting *)
  Definition cnt (t : nat -> bool) (first n : nat) : nat := length (filter t (seq first n)).

  Lemma cnt_S t i n : cnt t i (S n) = (if t i then 1 else 0) + cnt t (S i) n.
  Proof. unfold cnt. cbn. destruct (t i); reflexivity. Qed.

  Lemma cnt_add t a b i : cnt t i (a + b) = cnt t i a + cnt t (i + a) b.
  Proof. unfold cnt. rewrite seq_app, filter_app, app_length. reflexivity. Qed.

  Lemma has_count_cnt (P : nat -> Prop) t first last :
    first <= last ->
    (forall i, first <= i < last -> (t i = true <-> P i)) ->
    has_count P first last (cnt t first (last - first)).
  Proof.
    intros Hle Ht. exists (filter t (seq first (last - first))). repeat split.
    - apply NoDup_filter, seq_NoDup.
    - apply filter_In in H. rewrite in_seq in H. lia.
    - apply filter_In in H. rewrite in_seq in H. lia.
    - apply filter_In in H. rewrite in_seq in H. apply Ht; [lia|apply H].
    - intros [Hi HP]. apply filter_In. rewrite in_seq. split; [lia|]. now apply Ht.
  Qed.

  Lemma count_if_impl_ra_ok d p l : forall first size,
    1 <= size -> first + size <= length l -> Nat.log2_up size < d ->
    count_if_impl_ra d l p first size = Ok (cnt (tst p l) first size).
  Proof.
    induction d as [|d IH]; intros first size Hs Hl Hd; [lia|].
    cbn [count_if_impl_ra].
    destruct (size =? 1) eqn:E1.
    - apply Nat.eqb_eq in E1. subst size.
      rewrite (rd_tst p l first (fun b : bool => if b then 1 else 0)) by lia.
      rewrite cnt_S. unfold cnt. cbn. now rewrite Nat.add_0_r.
    - apply Nat.eqb_neq in E1.
      assert (H1 := log2_half size ltac:(lia)). assert (H2 := log2_half' size ltac:(lia)).
      rewrite IH by lia. cbn [bind]. rewrite IH by lia. cbn [bind].
      rewrite <- cnt_add. do 2 f_equal. lia.
  Qed.

  Lemma loop_count (step : nat * nat -> res (nat * nat)) (t : nat -> bool) last n : forall i c,
    last = i + n ->
    (forall j c, i <= j < last -> step (j, c) = Ok (S j, if t j then c + 1 else c)) ->
    loop (stop (fun s => fst s =? last)) step (S n) (i, c) = Ok (last, c + cnt t i n).
  Proof.
    induction n as [|n IH]; intros i c Hl Hs.
    - cbn. replace (i =? last) with true by (symmetry; apply Nat.eqb_eq; lia).
      unfold cnt. cbn. do 2 f_equal; lia.
    - remember (S n) as n1. cbn [loop]. subst n1.
      unfold stop at 1. cbn [fst snd bind].
      replace (i =? last) with false by (symmetry; apply Nat.eqb_neq; lia). cbn [bind].
      rewrite Hs by lia. cbn [bind]. rewrite cnt_S.
      rewrite IH; [|lia|intros; apply Hs; lia].
      do 2 f_equal. destruct (t i); lia.
  Qed.

  Lemma count_if_cnt c d l first last p : valid l first last -> depth_bound (last - first) <= d ->
    count_if c d l first last p = Ok (cnt (tst p l) first (last - first)).
  Proof.
    intros [H1 H2] Hd. unfold count_if. destruct c.
    - destruct (first =? last) eqn:E.
      + apply Nat.eqb_eq in E. subst. now rewrite Nat.sub_diag.
      + apply Nat.eqb_neq in E. apply count_if_impl_ra_ok; [lia|lia|now apply depth_ra].
    - erewrite dbl_stop_correct; [|apply (loop_count _ (tst p l) last (last - first) first 0)|apply depth_dbl, Hd].
      + reflexivity.
      + lia.
      + intros j k Hj. cbn [fst snd].
        apply (rd_tst p l j (fun b : bool => (S j, if b then k + 1 else k))). lia.
  Qed.

  Lemma count_if_correct_lemma c d l first last p :
    valid l first last -> depth_bound (last - first) <= d ->
    exists n, count_if c d l first last p = Ok n /\ has_count (sat p l) first last n.
  Proof.
    intros Hv Hd. rewrite count_if_cnt by assumption. eexists. split; [reflexivity|].
    apply has_count_cnt; [apply Hv|]. intros; apply tst_sat.
  Qed.

  (** The number of positions is unique, so [has_count] determines the answer. *)
  Lemma has_count_unique P first last n m :
    has_count P first last n -> has_count P first last m -> n = m.
  Proof.
    intros (xs&N1&L1&I1) (ys&N2&L2&I2). subst.
    apply Nat.le_antisymm; apply NoDup_incl_length; auto; intros z Hz.
    - apply I2, I1, Hz.
    - apply I1, I2, Hz.
  Qed.

  (** *** one_of, input version *)
  Lemma loop_one (step : nat * nat -> res (nat * nat)) (t : nat -> bool) last n : forall i c,
    last = i + n -> c <= 1 ->
    (forall j c, i <= j < last -> c <= 1 -> step (j, c) =
       Ok (if c =? 0 then if negb (t j) then (S j, 0) else (S j, 1)
           else if negb (t j) then (S j, 1) else (j, 2))) ->
    exists k, loop (stop (fun s => (1 <? snd s) || (fst s =? last))) step (S n) (i, c)
      = Ok (k, Nat.min 2 (c + cnt t i n)).
  Proof.
    induction n as [|n IH]; intros i c Hl Hc Hs.
    - exists i. cbn [loop]. unfold stop. cbn [fst snd bind].
      replace (i =? last) with true by (symmetry; apply Nat.eqb_eq; lia).
      rewrite orb_true_r. cbn [bind]. unfold cnt. cbn [seq filter length]. do 2 f_equal. lia.
    - remember (S n) as n1. cbn [loop]. subst n1.
      unfold stop at 1. cbn [fst snd bind].
      replace (1 <? c) with false by (symmetry; apply Nat.ltb_ge; lia).
      replace (i =? last) with false by (symmetry; apply Nat.eqb_neq; lia). cbn [bind orb].
      rewrite Hs by lia. cbn [bind]. rewrite cnt_S.
      destruct c as [|[|c]]; [| |lia]; cbn [Nat.eqb].
      + destruct (t i) eqn:Et; cbn [negb].
        * destruct (IH (S i) 1) as (k&Hk); [lia|lia|intros; apply Hs; lia|]. exists k. rewrite Hk. reflexivity.
        * destruct (IH (S i) 0) as (k&Hk); [lia|lia|intros; apply Hs; lia|]. exists k. rewrite Hk. reflexivity.
      + destruct (t i) eqn:Et; cbn [negb].
        * exists i. cbn [loop]. unfold stop. cbn [fst snd bind Nat.ltb Nat.leb orb]. do 2 f_equal.
        * destruct (IH (S i) 1) as (k&Hk); [lia|lia|intros; apply Hs; lia|]. exists k. rewrite Hk. reflexivity.
  Qed.

  Lemma one_of_in_cnt d l first last p : valid l first last -> depth_bound (last - first) <= d ->
    one_of_in d l first last p = Ok (cnt (tst p l) first (last - first) =? 1).
  Proof.
    intros [H1 H2] Hd. unfold one_of_in.
    edestruct loop_one with (t := tst p l) (i := first) (c := 0) (n := last - first) (last := last) as (k&Hk);
      [lia|lia| |erewrite dbl_stop_correct; [|exact Hk|apply depth_dbl, Hd]].
    - intros j c Hj Hc. cbn [fst snd].
      apply (rd_tst p l j (fun b : bool => if c =? 0 then if negb b then (S j, 0) else (S j, 1)
           else if negb b then (S j, 1) else (j, 2))). lia.
    - cbn [bind snd Nat.add]. f_equal. apply eq_true_iff_eq. rewrite !Nat.eqb_eq. lia.
  Qed.

  Lemma one_of_in_correct_lemma d l first last p :
    valid l first last -> depth_bound (last - first) <= d ->
    exists b, one_of false d l first last p = Ok b /\
      (b = true <-> has_count (sat p l) first last 1).
  Proof.
    intros Hv Hd. cbn [one_of]. rewrite one_of_in_cnt by assumption. eexists. split; [reflexivity|].
    rewrite Nat.eqb_eq.
    assert (Hc : has_count (sat p l) first last (cnt (tst p l) first (last - first))).
    { apply has_count_cnt; [apply Hv|]. intros; apply tst_sat. }
    split; intros H.
    - now rewrite <- H.
    - eapply has_count_unique; eauto.
  Qed.

  (** one_of, random access: what it does compute.  It never diverges or reads out
      of range, it is right when at most one element satisfies the predicate. *)
  Lemma one_of_impl_ra_ok d p l : forall first last,
    first < last -> last <= length l -> Nat.log2_up (last - first) < d ->
    exists b, one_of_impl_ra d l p first last ((last - first) / 2) = Ok b /\
      (cnt (tst p l) first (last - first) <= 1 -> b = (cnt (tst p l) first (last - first) =? 1)).
  Proof.
    induction d as [|d IH]; intros first last Hf Hl Hd; [lia|].
    cbn [one_of_impl_ra].
    destruct ((last - first) / 2 =? 0) eqn:Ep.
    - apply Nat.eqb_eq in Ep. assert (last = S first) by lia. subst last.
      rewrite (rd_tst p l first (fun b => b)) by lia. eexists. split; [reflexivity|].
      replace (S first - first) with 1 by lia. rewrite cnt_S. unfold cnt. cbn.
      destruct (tst p l first); reflexivity.
    - apply Nat.eqb_neq in Ep. set (n := last - first) in *.
      assert (H1 := log2_half n ltac:(lia)). assert (H2 := log2_half' n ltac:(lia)).
      replace (n / 2 / 2) with ((first + n / 2 - first) / 2) by (f_equal; lia).
      destruct (IH first (first + n / 2)) as (b1&Hb1&Hc1); [lia|lia| |].
      { replace (first + n / 2 - first) with (n / 2) by lia. lia. }
      replace (first + n / 2 - first) with (n / 2) in * by lia.
      rewrite Hb1. cbn [bind].
      assert (Hadd : cnt (tst p l) first n = cnt (tst p l) first (n / 2) + cnt (tst p l) (first + n / 2) (n - n / 2)).
      { rewrite <- cnt_add. f_equal. lia. }
      assert (Hrest : last - (first + n / 2) = n - n / 2) by lia.
      destruct b1.
      + replace ((n - n / 2) / 2) with ((last - (first + n / 2)) / 2) by (f_equal; lia).
        rewrite ra_and_ok with (t := fun i => negb (tst p l i)).
        2: lia.
        2: { intros i Hi. apply (rd_tst p l i negb). lia. }
        2: { rewrite Hrest. lia. }
        rewrite Hrest. eexists. split; [reflexivity|].
        intros Hle. specialize (Hc1 ltac:(lia)). symmetry in Hc1. apply Nat.eqb_eq in Hc1.
        rewrite Hadd, Hc1. replace (cnt (tst p l) (first + n / 2) (n - n / 2)) with 0 by lia.
        cbn [Nat.add Nat.eqb]. apply forallb_seq_iff. intros i Hi.
        destruct (tst p l i) eqn:Et; [|reflexivity]. exfalso.
        assert (Hin : In i (filter (tst p l) (seq (first + n / 2) (n - n / 2)))).
        { apply filter_In. split; [apply in_seq; lia|exact Et]. }
        assert (length (filter (tst p l) (seq (first + n / 2) (n - n / 2))) <> 0).
        { destruct (filter (tst p l) (seq (first + n / 2) (n - n / 2))); [destruct Hin|discriminate]. }
        unfold cnt in *. lia.
      + replace ((n - n / 2) / 2) with ((last - (first + n / 2)) / 2) by (f_equal; lia).
        destruct (IH (first + n / 2) last) as (b2&Hb2&Hc2); [lia|lia| |].
        { rewrite Hrest. lia. }
        rewrite Hb2. rewrite Hrest in Hc2. exists b2. split; [reflexivity|].
        intros Hle. rewrite Hc2 by lia. rewrite Hadd.
        specialize (Hc1 ltac:(lia)). symmetry in Hc1. apply Nat.eqb_neq in Hc1.
        f_equal. lia.
  Qed.

  Lemma one_of_partial_lemma c d l first last p :
    valid l first last -> depth_bound (last - first) <= d ->
    exists b, one_of c d l first last p = Ok b /\
      (c = false -> (b = true <-> has_count (sat p l) first last 1)) /\
      (has_count (sat p l) first last 1 -> b = true) /\
      (has_count (sat p l) first last 0 -> b = false).
  Proof.
    intros Hv Hd.
    assert (Hc : has_count (sat p l) first last (cnt (tst p l) first (last - first))).
    { apply has_count_cnt; [apply Hv|]. intros; apply tst_sat. }
    destruct c.
    - cbn [one_of]. unfold one_of_ra. destruct (first =? last) eqn:E.
      + apply Nat.eqb_eq in E. subst. exists false. split; [reflexivity|]. split; [discriminate|].
        split; [|easy]. intros H. rewrite Nat.sub_diag in Hc.
        pose proof (has_count_unique _ _ _ _ _ H Hc). discriminate.
      + apply Nat.eqb_neq in E. destruct Hv as [Hv1 Hv2].
        destruct (one_of_impl_ra_ok d p l first last) as (b&Hb&Hb'); [lia|lia|now apply depth_ra|].
        exists b. split; [exact Hb|]. split; [discriminate|].
        split; intros H; pose proof (has_count_unique _ _ _ _ _ H Hc) as E'; rewrite <- E' in Hb'; apply Hb'; lia.
    - destruct (one_of_in_correct_lemma d l first last p Hv Hd) as (b&Hb&Hi).
      exists b. split; [exact Hb|]. split; [intros _; exact Hi|]. split; [apply Hi|].
      intros H. destruct b; [|reflexivity].
      pose proof (has_count_unique _ _ _ _ _ H (proj1 Hi eq_refl)). discriminate.
  Qed.

  (** *** adjacent_find *)
  Lemma loop_adj (step : nat * nat -> res (nat * nat)) (t : nat -> bool) last n : forall i,
    last = i + 1 + n ->
    (forall j, i <= j < last - 1 -> step (j, S j) = Ok (if t j then (j, last) else (S j, S (S j)))) ->
    loop (stop (fun s => snd s =? last)) step (S n) (i, S i) = Ok (scan t i n, last).
  Proof.
    induction n as [|n IH]; intros i Hl Hs.
    - cbn [loop]. unfold stop. cbn [fst snd bind].
      replace (S i =? last) with true by (symmetry; apply Nat.eqb_eq; lia). cbn.
      do 2 f_equal. lia.
    - remember (S n) as n1. cbn [loop]. subst n1.
      unfold stop at 1. cbn [fst snd bind].
      replace (S i =? last) with false by (symmetry; apply Nat.eqb_neq; lia). cbn [bind].
      rewrite Hs by lia. cbn [bind scan].
      destruct (t i) eqn:Et.
      + cbn [loop]. unfold stop. cbn [fst snd bind]. rewrite Nat.eqb_refl. reflexivity.
      + apply IH; [lia|]. intros j Hj. apply Hs. lia.
  Qed.

  Lemma adjacent_find_scan c d l first last (p : A -> A -> bool) :
    valid l first last -> depth_bound (last - first) <= d ->
    exists r, adjacent_find c d l first last p = Ok r /\
      is_first (fun i => S i < last /\ rel p l i l (S i)) first last r.
  Proof.
    intros [H1 H2] Hd.
    destruct (Nat.le_gt_cases last (S first)) as [Hle|Hgt].
    - exists last. split.
      + unfold adjacent_find, adjacent_find_ra, adjacent_find_in. destruct c.
        * destruct (first =? last) eqn:E; [reflexivity|]. apply Nat.eqb_neq in E.
          replace (last - first =? 1) with true by (symmetry; apply Nat.eqb_eq; lia). reflexivity.
        * destruct (first =? last) eqn:E; [reflexivity|]. apply Nat.eqb_neq in E.
          assert (last = S first) by lia. subst last.
          destruct d as [|d]; [unfold depth_bound in Hd; lia|].
          cbn [dbl]. unfold stop. cbn [fst snd bind]. rewrite Nat.eqb_refl. cbn. now rewrite Nat.eqb_refl.
      + split; [lia|]. split; [intros j Hj [Hj' _]; lia|lia].
    - set (t := fun i => relb p l i l (S i)).
      assert (Hsp : exists r, adjacent_find c d l first last p = Ok r /\
        r = (if S (scan t first (last - first - 1)) =? last then last else scan t first (last - first - 1))).
      { unfold adjacent_find, adjacent_find_ra, adjacent_find_in.
        replace (first =? last) with false by (symmetry; apply Nat.eqb_neq; lia).
        replace (last - first =? 1) with false by (symmetry; apply Nat.eqb_neq; lia).
        cbn [orb]. destruct c.
        - replace ((last - first - 1) / 2) with ((first + (last - first - 1) - first) / 2) by (f_equal; lia).
          rewrite ra_search_ok with (t := t).
          + rewrite Nat.eqb_refl. cbn [bind]. eexists; split; [reflexivity|].
            replace (first + (last - first - 1) - first) with (last - first - 1) by lia.
            pose proof (scan_bounds t (last - first - 1) first).
            set (r := scan t first (last - first - 1)) in *.
            destruct (last - r =? 1) eqn:E; destruct (S r =? last) eqn:E'; try reflexivity;
              rewrite ?Nat.eqb_eq, ?Nat.eqb_neq in *; lia.
          + lia.
          + intros i Hi. apply (rd_relb p l i l (S i) (fun b => b)); lia.
          + apply depth_ra. etransitivity; [|exact Hd]. apply depth_mono. lia.
        - erewrite dbl_stop_correct.
          2: { apply (loop_adj _ t last (last - first - 1) first); [lia|].
               intros j Hj. cbn [fst snd].
               apply (rd_relb p l j l (S j) (fun b : bool => if b then (j, last) else (S j, S (S j)))); lia. }
          2: { apply depth_dbl. etransitivity; [|exact Hd]. apply depth_mono. lia. }
          cbn [bind fst]. eexists; split; reflexivity. }
      destruct Hsp as (r&Hr&Er). exists r. split; [exact Hr|].
      destruct (scan_spec t (last - first - 1) first) as (G1&G2&G3).
      set (s := scan t first (last - first - 1)) in *.
      destruct (S s =? last) eqn:E.
      + apply Nat.eqb_eq in E. subst r. split; [lia|]. split; [|lia].
        intros j Hj [Hj' HR]. apply relb_rel in HR. assert (t j = false) by (apply G2; lia).
        unfold t in *. congruence.
      + apply Nat.eqb_neq in E. subst r. split; [lia|]. split.
        * intros j Hj [Hj' HR]. apply relb_rel in HR. assert (t j = false) by (apply G2; lia).
          unfold t in *. congruence.
        * intros Hlt. split; [lia|]. apply relb_rel. apply G3. lia.
  Qed.
End OneRange.
