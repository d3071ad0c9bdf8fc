(** Proofs about sprout/numeric. *)
From Coq Require Import List Arith Bool Lia.
From Verif Require Import Base BaseProof SearchModel SearchSpec SearchProof OrderModel OrderSpec ListFacts
  MutModel MutSpec MutProof NumModel NumSpec.
Import ListNotations.

(** ** Left folds *)

Lemma fold_left_slice {A B} (op : B -> A -> B) (l : list A) first mid last a :
  first <= mid <= last ->
  fold_left op (slice l first last) a = fold_left op (slice l mid last) (fold_left op (slice l first mid) a).
Proof. intros H. rewrite (slice_app l first mid last H). apply fold_left_app. Qed.

Lemma accumulate_ra_ok {A B} d (op : B -> A -> B) (l : list A) : forall first last a,
  first < last -> last <= length l -> Nat.log2_up (last - first) < d ->
  accumulate_ra d l first last op ((last - first) / 2) a = Ok (fold_left op (slice l first last) a).
Proof.
  induction d as [|d IH]; intros first last a H1 H2 Hd; [lia|].
  cbn [accumulate_ra].
  destruct ((last - first) / 2 =? 0) eqn:E.
  - apply Nat.eqb_eq in E. assert (last = S first) as ->.
    { apply Nat.div_small_iff in E; lia. }
    destruct (nth_error_ex l first ltac:(lia)) as [x Hx].
    unfold rd. rewrite Hx. cbn [bind].
    rewrite (slice_cons l first (S first) x) by (auto; lia). rewrite slice_nil by lia. reflexivity.
  - apply Nat.eqb_neq in E. set (n := last - first) in *.
    assert (2 <= n). { destruct n as [|[|n]]; [lia|cbn in E; lia|lia]. }
    assert (n / 2 < n) by (apply Nat.div_lt; lia).
    assert (0 < n / 2) by lia.
    assert (Ha := log2_half n ltac:(lia)). assert (Hb := log2_half' n ltac:(lia)).
    replace (n / 2 / 2) with ((first + n / 2 - first) / 2) by (f_equal; lia).
    rewrite IH; [|lia|lia|].
    2:{ replace (first + n / 2 - first) with (n / 2) by lia. lia. }
    cbn [bind].
    replace (n - n / 2) with (last - (first + n / 2)) by lia.
    rewrite IH; [|lia|lia|].
    2:{ replace (last - (first + n / 2)) with (n - n / 2) by lia. lia. }
    rewrite (fold_left_slice op l first (first + n / 2) last) by lia. reflexivity.
Qed.

Lemma loop_fold {A B} (op : B -> A -> B) (l : list A) last n : forall i a,
  last = i + n -> last <= length l ->
  loop (stop (fun s : nat * B => fst s =? last))
       (fun s => x <- rd l (fst s) ;; Ok (S (fst s), op (snd s) x)) (S n) (i, a)
  = Ok (last, fold_left op (slice l i last) a).
Proof.
  induction n as [|n IH]; intros i a Hl HL.
  - cbn. replace (i =? last) with true by (symmetry; apply Nat.eqb_eq; lia).
    rewrite slice_nil by lia. cbn. do 2 f_equal. lia.
  - remember (S n) as n1. cbn [loop]. subst n1. unfold stop at 1. cbn [fst snd bind].
    replace (i =? last) with false by (symmetry; apply Nat.eqb_neq; lia). cbn [bind].
    destruct (nth_error_ex l i ltac:(lia)) as [x Hx]. unfold rd at 1. rewrite Hx. cbn [bind].
    rewrite IH by lia. rewrite (slice_cons l i last x) by (auto; lia). reflexivity.
Qed.

Lemma accumulate_correct_lemma {A B} c d (l : list A) first last (init : B) op :
  valid l first last -> depth_bound (last - first) <= d ->
  accumulate c d l first last init op = Ok (fold_left op (slice l first last) init).
Proof.
  intros [V1 V2] Hd. unfold accumulate. destruct c.
  - destruct (first =? last) eqn:E.
    + apply Nat.eqb_eq in E. subst. rewrite slice_nil by lia. reflexivity.
    + apply Nat.eqb_neq in E. apply accumulate_ra_ok; [lia|lia|now apply depth_ra].
  - erewrite dbl_stop_correct; [|apply (loop_fold op l last (last - first) first init)|apply depth_dbl, Hd]; [|lia|lia].
    reflexivity.
Qed.

Lemma reduce_correct_lemma {A B} c d (l : list A) first last (init : B) op :
  valid l first last -> depth_bound (last - first) <= d ->
  reduce c d l first last init op = Ok (fold_left op (slice l first last) init).
Proof. apply accumulate_correct_lemma. Qed.

(** transform_reduce is accumulate with another operation. *)
Lemma transform_reduce_ra_eq {A B C} (op : B -> C -> B) (u : A -> C) (l : list A) d : forall first last pivot a,
  transform_reduce_ra d l first last op u pivot a = accumulate_ra d l first last (fun a x => op a (u x)) pivot a.
Proof.
  induction d as [|d IH]; intros; [reflexivity|]. cbn [transform_reduce_ra accumulate_ra].
  destruct (pivot =? 0); [reflexivity|]. rewrite IH.
  destruct (accumulate_ra d l first (first + pivot) _ (pivot / 2) a); cbn [bind]; auto.
Qed.

Lemma transform_reduce_correct_lemma {A B C} c d (l : list A) first last (init : B) (op : B -> C -> B) u :
  valid l first last -> depth_bound (last - first) <= d ->
  transform_reduce c d l first last init op u = Ok (fold_left op (map u (slice l first last)) init).
Proof.
  intros V Hd.
  assert (E : forall xs a, fold_left op (map u xs) a = fold_left (fun a x => op a (u x)) xs a).
  { induction xs as [|x t IH]; intros a; cbn; auto. }
  rewrite E, <- (accumulate_correct_lemma c d l first last init _ V Hd).
  unfold transform_reduce, accumulate. destruct c; [|reflexivity].
  now rewrite transform_reduce_ra_eq.
Qed.

(** Two ranges. *)
Section Two.
  Context {A1 A2 B C : Type}.
  Variables (op1 : B -> C -> B) (op2 : A1 -> A2 -> C).

  Definition zip2 (l1 : list A1) (l2 : list A2) (i j n : nat) : list C :=
    map (fun p => op2 (fst p) (snd p)) (combine (slice l1 i (i + n)) (slice l2 j (j + n))).

  Lemma zip2_S l1 l2 i j n x y : nth_error l1 i = Some x -> nth_error l2 j = Some y ->
    zip2 l1 l2 i j (S n) = op2 x y :: zip2 l1 l2 (S i) (S j) n.
  Proof.
    intros Hx Hy. unfold zip2. rewrite (slice_cons l1 i (i + S n) x), (slice_cons l2 j (j + S n) y) by (auto; lia).
    cbn [combine map fst snd]. now replace (i + S n) with (S i + n) by lia; replace (j + S n) with (S j + n) by lia.
  Qed.

  Lemma zip2_0 l1 l2 i j : zip2 l1 l2 i j 0 = [].
  Proof. unfold zip2. now rewrite slice_nil by lia. Qed.

  Lemma zip2_add l1 l2 a : forall i j b, i + (a + b) <= length l1 -> j + (a + b) <= length l2 ->
    zip2 l1 l2 i j (a + b) = zip2 l1 l2 i j a ++ zip2 l1 l2 (i + a) (j + a) b.
  Proof.
    induction a as [|a IH]; intros i j b H1 H2.
    - rewrite zip2_0. cbn. now rewrite !Nat.add_0_r.
    - destruct (nth_error_ex l1 i ltac:(lia)) as [x Hx]. destruct (nth_error_ex l2 j ltac:(lia)) as [y Hy].
      cbn [Nat.add]. rewrite (zip2_S l1 l2 i j (a + b) x y), (zip2_S l1 l2 i j a x y), IH by (auto; lia).
      cbn [app]. replace (S i + a) with (i + S a) by lia. replace (S j + a) with (j + S a) by lia. reflexivity.
  Qed.

  Lemma transform_reduce2_ra_ok d l1 l2 : forall i j n a,
    1 <= n -> i + n <= length l1 -> j + n <= length l2 -> Nat.log2_up n < d ->
    transform_reduce2_ra d l1 l2 i (i + n) j op1 op2 (n / 2) a = Ok (fold_left op1 (zip2 l1 l2 i j n) a).
  Proof.
    induction d as [|d IH]; intros i j n a H0 H1 H2 Hd; [lia|].
    cbn [transform_reduce2_ra].
    destruct (n / 2 =? 0) eqn:E.
    - apply Nat.eqb_eq in E. assert (n = 1) as ->. { apply Nat.div_small_iff in E; lia. }
      destruct (nth_error_ex l1 i ltac:(lia)) as [x Hx]. destruct (nth_error_ex l2 j ltac:(lia)) as [y Hy].
      unfold rd. rewrite Hx, Hy. cbn [bind]. rewrite (zip2_S l1 l2 i j 0 x y) by auto. now rewrite zip2_0.
    - apply Nat.eqb_neq in E.
      assert (2 <= n). { destruct n as [|[|n]]; [lia|cbn in E; lia|lia]. }
      assert (n / 2 < n) by (apply Nat.div_lt; lia). assert (0 < n / 2) by lia.
      assert (Ha := log2_half n ltac:(lia)). assert (Hb := log2_half' n ltac:(lia)).
      rewrite IH by lia. cbn [bind].
      replace (i + n - i - n / 2) with (n - n / 2) by lia.
      replace (i + n) with (i + n / 2 + (n - n / 2)) by lia. rewrite IH by lia.
      rewrite <- fold_left_app, <- zip2_add by lia. do 3 f_equal. lia.
  Qed.

  Lemma loop_fold2 l1 l2 last n : forall i j a,
    last = i + n -> i + n <= length l1 -> j + n <= length l2 ->
    loop (stop (fun s : nat * nat * B => fst (fst s) =? last))
       (fun '((i, j, a) : nat * nat * B) =>
          x <- rd l1 i ;; y <- rd l2 j ;; Ok (S i, S j, op1 a (op2 x y))) (S n) (i, j, a)
    = Ok (last, j + n, fold_left op1 (zip2 l1 l2 i j n) a).
  Proof.
    induction n as [|n IH]; intros i j a Hl H1 H2.
    - cbn. replace (i =? last) with true by (symmetry; apply Nat.eqb_eq; lia).
      rewrite zip2_0. cbn. do 2 f_equal. f_equal; lia.
    - remember (S n) as n1. cbn [loop]. subst n1. unfold stop at 1. cbn [fst snd bind].
      replace (i =? last) with false by (symmetry; apply Nat.eqb_neq; lia). cbn [bind].
      destruct (nth_error_ex l1 i ltac:(lia)) as [x Hx]. destruct (nth_error_ex l2 j ltac:(lia)) as [y Hy].
      unfold rd at 1 2. rewrite Hx, Hy. cbn [bind].
      rewrite IH by lia. rewrite (zip2_S l1 l2 i j n x y) by auto. cbn [fold_left].
      do 3 f_equal. lia.
  Qed.

  Lemma transform_reduce2_correct_lemma c d l1 l2 first1 last1 first2 init :
    valid l1 first1 last1 -> first2 + (last1 - first1) <= length l2 -> depth_bound (last1 - first1) <= d ->
    transform_reduce2 c d l1 l2 first1 last1 first2 init op1 op2 =
      Ok (fold_left op1 (map (fun p => op2 (fst p) (snd p))
            (combine (slice l1 first1 last1) (slice l2 first2 (first2 + (last1 - first1))))) init).
  Proof.
    intros [V1 V2] H2 Hd.
    change (transform_reduce2 c d l1 l2 first1 last1 first2 init op1 op2 =
      Ok (fold_left op1 (map (fun p => op2 (fst p) (snd p))
            (combine (slice l1 first1 last1) (slice l2 first2 (first2 + (last1 - first1))))) init)).
    replace (slice l1 first1 last1) with (slice l1 first1 (first1 + (last1 - first1))) by (f_equal; lia).
    fold (zip2 l1 l2 first1 first2 (last1 - first1)).
    unfold transform_reduce2. destruct c.
    - destruct (first1 =? last1) eqn:E.
      + apply Nat.eqb_eq in E. subst. rewrite Nat.sub_diag, zip2_0. reflexivity.
      + apply Nat.eqb_neq in E.
        rewrite <- (transform_reduce2_ra_ok d) by (try lia; now apply depth_ra).
        f_equal. lia.
    - erewrite dbl_stop_correct;
        [|apply (loop_fold2 l1 l2 last1 (last1 - first1) first1 first2 init)|apply depth_dbl, Hd]; [|lia..].
      reflexivity.
  Qed.
End Two.

(** ** Scans *)
Section Scan.
  Context {A : Type}.
  Implicit Types (m xs : list A) (op : A -> A -> A) (u : A -> A).

  Lemma prefix_folds_length {B C} (op : C -> B -> C) (xs : list B) : forall a, length (prefix_folds op a xs) = length xs.
  Proof. induction xs as [|x t IH]; intros a; cbn; auto. Qed.

  Lemma exclusive_length {B C} (op : C -> B -> C) (xs : list B) : forall a, length (exclusive op a xs) = length xs.
  Proof. induction xs as [|x t IH]; intros a; cbn; auto. Qed.

  Lemma differences_length op xs : forall a, length (differences op a xs) = length xs.
  Proof. induction xs as [|x t IH]; intros a; cbn; auto. Qed.

  Lemma counting_length (succ : A -> A) n : forall v, length (counting succ v n) = n.
  Proof. induction n as [|n IH]; intros v; cbn; auto. Qed.

  Lemma inclusive_length op xs : length (inclusive op xs) = length xs.
  Proof. destruct xs; cbn; [reflexivity|]. now rewrite prefix_folds_length. Qed.

  Lemma adjacent_length op xs : length (adjacent op xs) = length xs.
  Proof. destruct xs; cbn; [reflexivity|]. now rewrite differences_length. Qed.

  Lemma wr_ok m i (x : A) : i < length m -> wr m i x = Ok (upd m i x).
  Proof. unfold wr. intros H. apply Nat.ltb_lt in H. now rewrite H. Qed.

  Lemma upd_paste m r x xs : S r + length xs <= length m ->
    paste (upd m r x) (S r) xs = paste m r (x :: xs).
  Proof.
    intros H. apply paste_ext; cbn [length]; [lia| |].
    - intros j Hj. destruct (Nat.eq_dec j r) as [->|N].
      + rewrite nth_paste_out by (rewrite ?upd_length; lia). rewrite upd_eq by lia.
        now rewrite Nat.sub_diag.
      + rewrite nth_paste_in by (rewrite ?upd_length; lia). replace (j - r) with (S (j - S r)) by lia. reflexivity.
    - intros j Hj. rewrite nth_paste_out by (rewrite ?upd_length; lia). apply upd_neq. lia.
  Qed.

  Lemma slice_upd_out m r x a b : r < a \/ b <= r -> b <= length m -> slice (upd m r x) a b = slice m a b.
  Proof.
    intros H Hb. apply list_ext. intros j.
    destruct (Nat.lt_ge_cases j (b - a)) as [C|C].
    - rewrite !nth_error_slice by lia. apply upd_neq. lia.
    - rewrite !nth_error_end by (rewrite slice_length; rewrite ?upd_length; lia). reflexivity.
  Qed.

  Lemma sum_loop_ok op u last n : forall k m f r s,
    last = S f + n -> last <= length m -> S r + n <= length m -> r <= f \/ last <= S r -> n < k ->
    sum_loop k last op u (m, f, r, s) =
      Ok (paste m (S r) (prefix_folds (fun a x => op a (u x)) s (slice m (S f) last)), S r + n).
  Proof.
    induction n as [|n IH]; intros k m f r s HL Hm Hr HS Hk; (destruct k as [|k]; [lia|]).
    - unfold sum_loop. cbn [iter].
      replace (S f =? last) with true by (symmetry; apply Nat.eqb_eq; lia). cbn [bind].
      rewrite slice_nil by lia. cbn [prefix_folds]. rewrite paste_nil. do 2 f_equal. lia.
    - unfold sum_loop. cbn [iter].
      replace (S f =? last) with false by (symmetry; apply Nat.eqb_neq; lia).
      destruct (nth_error_ex m (S f) ltac:(lia)) as [x Hx].
      unfold rd at 1. rewrite Hx. cbn [bind]. rewrite wr_ok by lia. cbn [bind].
      fold (sum_loop k last op u (upd m (S r) (op s (u x)), S f, S r, op s (u x))).
      rewrite IH by (rewrite ?upd_length; lia).
      rewrite slice_upd_out by lia. rewrite upd_paste.
      2:{ rewrite prefix_folds_length, slice_length; lia. }
      rewrite (slice_cons m (S f) last x) by (auto; lia). cbn [prefix_folds]. do 2 f_equal. lia.
  Qed.

  Lemma transform_inclusive_scan_correct_lemma k m first last result op u :
    valid m first last -> forward_safe first last result ->
    result + (last - first) <= length m -> last - first < k ->
    transform_inclusive_scan k m first last result op u =
      Ok (paste m result (inclusive op (map u (slice m first last))), result + (last - first)).
  Proof.
    intros [V1 V2] FS HR Hk. unfold transform_inclusive_scan.
    destruct (first =? last) eqn:E.
    - apply Nat.eqb_eq in E. subst. rewrite slice_nil by lia. cbn. rewrite paste_nil. do 2 f_equal. lia.
    - apply Nat.eqb_neq in E.
      destruct (nth_error_ex m first ltac:(lia)) as [x Hx].
      unfold rd at 1. rewrite Hx. cbn [bind]. rewrite wr_ok by lia. cbn [bind].
      rewrite (sum_loop_ok op u last (last - S first)).
      2,3,4,6: rewrite ?upd_length; lia.
      2:{ destruct FS; [left|right]; lia. }
      rewrite slice_upd_out by (destruct FS; lia).
      rewrite upd_paste by (rewrite prefix_folds_length, slice_length; lia).
      rewrite (slice_cons m first last x) by (auto; lia). cbn [map inclusive].
      assert (PF : forall xs a, prefix_folds (fun a x => op a (u x)) a xs = prefix_folds op a (map u xs)).
      { induction xs as [|y t IH]; intros a; cbn; [reflexivity|]. now rewrite IH. }
      rewrite PF. do 2 f_equal. lia.
  Qed.

  Lemma partial_sum_correct_lemma k m first last result op :
    valid m first last -> forward_safe first last result ->
    result + (last - first) <= length m -> last - first < k ->
    partial_sum k m first last result op =
      Ok (paste m result (inclusive op (slice m first last)), result + (last - first)).
  Proof.
    intros V FS HR Hk.
    pose proof (transform_inclusive_scan_correct_lemma k m first last result op (fun x => x) V FS HR Hk) as H.
    rewrite map_id in H. exact H.
  Qed.

  Lemma adjacent_difference_correct_lemma k m first last result op :
    valid m first last -> forward_safe first last result ->
    result + (last - first) <= length m -> last - first < k ->
    adjacent_difference k m first last result op =
      Ok (paste m result (adjacent op (slice m first last)), result + (last - first)).
  Proof.
    intros [V1 V2] FS HR Hk. unfold adjacent_difference.
    destruct (first =? last) eqn:E.
    - apply Nat.eqb_eq in E. subst. rewrite slice_nil by lia. cbn. rewrite paste_nil. do 2 f_equal. lia.
    - apply Nat.eqb_neq in E.
      destruct (nth_error_ex m first ltac:(lia)) as [x Hx].
      unfold rd at 1. rewrite Hx. cbn [bind]. rewrite wr_ok by lia. cbn [bind].
      match goal with |- iter k ?b _ = _ => set (body := b) end.
      assert (L : forall n k m f r s, last = S f + n -> last <= length m -> S r + n <= length m ->
        r <= f \/ last <= S r -> n < k ->
        iter k body (m, f, r, s) = Ok (paste m (S r) (differences op s (slice m (S f) last)), S r + n)).
      { clear. induction n as [|n IH]; intros k m f r s HL Hm Hr HS Hk; (destruct k as [|k]; [lia|]);
          cbn [iter]; unfold body at 1.
        - replace (S f =? last) with true by (symmetry; apply Nat.eqb_eq; lia). cbn [bind].
          rewrite slice_nil by lia. cbn [differences]. rewrite paste_nil. do 2 f_equal. lia.
        - replace (S f =? last) with false by (symmetry; apply Nat.eqb_neq; lia).
          destruct (nth_error_ex m (S f) ltac:(lia)) as [x Hx].
          unfold rd at 1. rewrite Hx. cbn [bind]. rewrite wr_ok by lia. cbn [bind].
          rewrite IH by (rewrite ?upd_length; lia).
          rewrite slice_upd_out by lia. rewrite upd_paste.
          2:{ rewrite differences_length, slice_length; lia. }
          rewrite (slice_cons m (S f) last x) by (auto; lia). cbn [differences]. do 2 f_equal. lia. }
      rewrite (L (last - S first)).
      2,3,4,6: rewrite ?upd_length; lia.
      2:{ destruct FS; [left|right]; lia. }
      rewrite slice_upd_out by (destruct FS; lia).
      rewrite upd_paste by (rewrite differences_length, slice_length; lia).
      rewrite (slice_cons m first last x) by (auto; lia). cbn [adjacent]. do 2 f_equal. lia.
  Qed.

  Lemma iota_correct_lemma k m first last (succ : A -> A) value :
    valid m first last -> last - first < k ->
    iota k m first last succ value = Ok (paste m first (counting succ value (last - first))).
  Proof.
    intros [V1 V2]. unfold iota. remember (last - first) as n eqn:En. revert k m first value V1 V2 En.
    induction n as [|n IH]; intros k m first value V1 V2 En Hk; (destruct k as [|k]; [lia|]); cbn [iter].
    - replace (first =? last) with true by (symmetry; apply Nat.eqb_eq; lia). cbn. now rewrite paste_nil.
    - replace (first =? last) with false by (symmetry; apply Nat.eqb_neq; lia).
      rewrite wr_ok by lia. cbn [bind]. rewrite IH by (rewrite ?upd_length; lia).
      rewrite upd_paste by (rewrite counting_length; lia). reflexivity.
  Qed.

  Lemma exclusive_map op u xs : forall (a : A),
    exclusive (fun a x => op a (u x)) a xs = exclusive op a (map u xs).
  Proof. induction xs as [|y t IH]; intros a; cbn; [reflexivity|]. now rewrite IH. Qed.

  Lemma transform_exclusive_scan_partial_lemma k m first last result init op u :
    valid m first last -> first < last -> result < first \/ last <= result ->
    result + (last - first) <= length m -> last - first < k ->
    transform_exclusive_scan k m first last result init op u =
      Ok (paste m result (exclusive op init (map u (slice m first last))), result + (last - first)).
  Proof.
    intros [V1 V2] Hne FS HR Hk. unfold transform_exclusive_scan.
    rewrite wr_ok by lia. cbn [bind].
    replace (first =? last) with false by (symmetry; apply Nat.eqb_neq; lia).
    destruct (nth_error_ex m first ltac:(lia)) as [x Hx].
    unfold rd at 1. rewrite upd_neq by lia. rewrite Hx. cbn [bind].
    match goal with |- iter k ?b _ = _ => set (body := b) end.
    assert (L : forall n k m f r s t, last = S f + n -> last <= length m -> S r + n <= length m ->
      S r <= f \/ last <= S r -> n < k ->
      iter k body (m, f, r, s, t) =
        Ok (paste m (S r) (exclusive op (op s t) (map u (slice m (S f) last))), S r + n)).
    { clear. induction n as [|n IH]; intros k m f r s t HL Hm Hr HS Hk; (destruct k as [|k]; [lia|]);
        cbn [iter]; unfold body at 1.
      - replace (S f =? last) with true by (symmetry; apply Nat.eqb_eq; lia). cbn [bind].
        rewrite slice_nil by lia. cbn [exclusive map]. rewrite paste_nil. do 2 f_equal. lia.
      - replace (S f =? last) with false by (symmetry; apply Nat.eqb_neq; lia).
        destruct (nth_error_ex m (S f) ltac:(lia)) as [x Hx].
        rewrite wr_ok by lia. cbn [bind]. unfold rd at 1. rewrite upd_neq by lia. rewrite Hx. cbn [bind].
        rewrite IH by (rewrite ?upd_length; lia).
        rewrite slice_upd_out by lia. rewrite upd_paste.
        2:{ rewrite exclusive_length, map_length, slice_length; lia. }
        rewrite (slice_cons m (S f) last x) by (auto; lia). cbn [map exclusive]. do 2 f_equal. lia. }
    rewrite (L (last - S first)).
    2,3,4,6: rewrite ?upd_length; lia.
    2:{ destruct FS; [left|right]; lia. }
    rewrite slice_upd_out by (destruct FS; lia).
    rewrite upd_paste by (rewrite exclusive_length, map_length, slice_length; lia).
    rewrite (slice_cons m first last x) by (auto; lia). cbn [map exclusive]. do 2 f_equal. lia.
  Qed.

  Lemma exclusive_scan_partial_lemma k m first last result init op :
    valid m first last -> first < last -> result < first \/ last <= result ->
    result + (last - first) <= length m -> last - first < k ->
    exclusive_scan k m first last result init op =
      Ok (paste m result (exclusive op init (slice m first last)), result + (last - first)).
  Proof.
    intros V Hne FS HR Hk.
    pose proof (transform_exclusive_scan_partial_lemma k m first last result init op (fun x => x) V Hne FS HR Hk) as H.
    rewrite map_id in H. exact H.
  Qed.

  Lemma transform_inclusive_scan_init_partial_lemma k m first last result op u init :
    valid m first last -> result < first \/ last <= result ->
    S result + (last - first) <= length m -> last - first < k ->
    transform_inclusive_scan_init k m first last result op u init =
      Ok (paste m result (init :: prefix_folds op init (map u (slice m first last))), S result + (last - first)).
  Proof.
    intros [V1 V2] FS HR Hk. unfold transform_inclusive_scan_init.
    rewrite wr_ok by lia. cbn [bind].
    destruct (first =? last) eqn:E.
    - apply Nat.eqb_eq in E. subst. rewrite slice_nil by lia. cbn [map prefix_folds].
      rewrite <- upd_paste by (cbn; lia). rewrite paste_nil. do 2 f_equal. lia.
    - apply Nat.eqb_neq in E.
      destruct (nth_error_ex m first ltac:(lia)) as [x Hx].
      unfold rd at 1. rewrite upd_neq by lia. rewrite Hx. cbn [bind]. rewrite wr_ok by (rewrite upd_length; lia). cbn [bind].
      rewrite (sum_loop_ok op u last (last - S first)).
      2,3,4,6: rewrite ?upd_length; lia.
      2:{ destruct FS; [left|right]; lia. }
      assert (PF : forall xs a, prefix_folds (fun a x => op a (u x)) a xs = prefix_folds op a (map u xs)).
      { induction xs as [|y t IH]; intros a; cbn; [reflexivity|]. now rewrite IH. }
      rewrite PF.
      rewrite slice_upd_out by (rewrite ?upd_length; destruct FS; lia).
      rewrite slice_upd_out by (destruct FS; lia).
      rewrite upd_paste by (rewrite prefix_folds_length, map_length, slice_length; rewrite ?upd_length; lia).
      rewrite upd_paste by (cbn [length]; rewrite prefix_folds_length, map_length, slice_length; lia).
      rewrite (slice_cons m first last x) by (auto; lia). cbn [map prefix_folds]. do 2 f_equal. lia.
  Qed.

  Lemma inclusive_scan_init_partial_lemma k m first last result op init :
    valid m first last -> result < first \/ last <= result ->
    S result + (last - first) <= length m -> last - first < k ->
    inclusive_scan_init k m first last result op init =
      Ok (paste m result (init :: prefix_folds op init (slice m first last)), S result + (last - first)).
  Proof.
    intros V FS HR Hk.
    pose proof (transform_inclusive_scan_init_partial_lemma k m first last result op (fun x => x) init V FS HR Hk) as H.
    rewrite map_id in H. exact H.
  Qed.

  (** partial_sum and adjacent_difference undo each other. *)
  Lemma adjacent_inclusive plus minus xs : (forall a x, minus (plus a x) a = x) ->
    adjacent minus (inclusive plus xs) = xs.
  Proof.
    intros H. destruct xs as [|x t]; [reflexivity|]. cbn. f_equal.
    revert x. induction t as [|y t IH]; intros x; cbn; [reflexivity|]. now rewrite H, IH.
  Qed.

  Lemma inclusive_adjacent plus minus xs : (forall a x, plus a (minus x a) = x) ->
    inclusive plus (adjacent minus xs) = xs.
  Proof.
    intros H. destruct xs as [|x t]; [reflexivity|]. cbn. f_equal.
    revert x. induction t as [|y t IH]; intros x; cbn; [reflexivity|]. now rewrite H, IH.
  Qed.

  Lemma sum_difference_inverse_lemma k m first last result plus minus :
    valid m first last -> forward_safe first last result ->
    result + (last - first) <= length m -> last - first < k ->
    ((forall a x, minus (plus a x) a = x) ->
     (r <- partial_sum k m first last result plus ;;
      adjacent_difference k (fst r) result (snd r) result minus)
     = Ok (paste m result (slice m first last), result + (last - first))) /\
    ((forall a x, plus a (minus x a) = x) ->
     (r <- adjacent_difference k m first last result minus ;;
      partial_sum k (fst r) result (snd r) result plus)
     = Ok (paste m result (slice m first last), result + (last - first))).
  Proof.
    intros V FS HR Hk. pose proof V as [V1 V2]. split; intros H.
    - rewrite partial_sum_correct_lemma by assumption. cbn [bind fst snd].
      assert (L : length (inclusive plus (slice m first last)) = last - first).
      { rewrite inclusive_length, slice_length; lia. }
      rewrite adjacent_difference_correct_lemma; [|split; rewrite ?paste_length; lia|left; lia|rewrite paste_length; lia|lia].
      assert (SP := slice_paste m result (inclusive plus (slice m first last)) ltac:(lia)).
      rewrite L in SP. rewrite SP.
      rewrite adjacent_inclusive by exact H.
      rewrite paste_paste; [|rewrite L, slice_length; lia|lia]. do 2 f_equal. lia.
    - rewrite adjacent_difference_correct_lemma by assumption. cbn [bind fst snd].
      assert (L : length (adjacent minus (slice m first last)) = last - first).
      { rewrite adjacent_length, slice_length; lia. }
      rewrite partial_sum_correct_lemma; [|split; rewrite ?paste_length; lia|left; lia|rewrite paste_length; lia|lia].
      assert (SP := slice_paste m result (adjacent minus (slice m first last)) ltac:(lia)).
      rewrite L in SP. rewrite SP.
      rewrite inclusive_adjacent by exact H.
      rewrite paste_paste; [|rewrite L, slice_length; lia|lia]. do 2 f_equal. lia.
  Qed.
End Scan.

Lemma exclusive_scan_refuted_lemma :
  ~ (forall A k (m : list A) first last result init op,
       valid m first last -> forward_safe first last result ->
       result + (last - first) <= length m -> last - first < k ->
       exclusive_scan k m first last result init op =
         Ok (paste m result (exclusive op init (slice m first last)), result + (last - first))).
Proof.
  intros H. specialize (H nat 5 [1;2;3] 0 3 0 10 Nat.add).
  assert (E : exclusive_scan 5 [1; 2; 3] 0 3 0 10 Nat.add = Ok ([10; 20; 40], 3)) by reflexivity.
  rewrite E in H. cbn in H.
  assert (V : valid [1;2;3] 0 3) by (split; cbn; lia).
  specialize (H V ltac:(left; lia) ltac:(lia) ltac:(lia)). discriminate.
Qed.

Lemma exclusive_scan_empty_lemma {A} k (m : list A) first result init op :
  (result < length m -> exclusive_scan k m first first result init op = Ok (upd m result init, S result)) /\
  (length m <= result -> exclusive_scan k m first first result init op = UB).
Proof.
  unfold exclusive_scan, transform_exclusive_scan. split; intros H.
  - rewrite wr_ok by exact H. cbn [bind]. now rewrite Nat.eqb_refl.
  - unfold wr. apply Nat.ltb_ge in H. rewrite H. reflexivity.
Qed.

Lemma inclusive_scan_init_refuted_lemma :
  ~ (forall A k (m : list A) first last result op init,
       valid m first last -> last <= result ->
       result + (last - first) <= length m -> last - first < k ->
       inclusive_scan_init k m first last result op init =
         Ok (paste m result (prefix_folds op init (slice m first last)), result + (last - first))).
Proof.
  intros H. specialize (H nat 5 [1;2;3;0;0;0;0] 0 3 3 Nat.add 10).
  assert (V : valid [1;2;3;0;0;0;0] 0 3) by (split; cbn; lia).
  specialize (H V ltac:(lia) ltac:(cbn; lia) ltac:(lia)). vm_compute in H. discriminate.
Qed.
