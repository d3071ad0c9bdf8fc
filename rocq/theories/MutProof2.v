(** Copying, filling, transforming, removing. *)
From Coq Require Import List Arith Bool Lia Permutation.
From Verif Require Import Base SearchModel SearchSpec SearchProof OrderModel OrderSpec ListFacts
  MutModel MutSpec MutProof.
Import ListNotations.

Lemma iter_ext {S R} (b1 b2 : S -> res (S + R)) : (forall s, b1 s = b2 s) ->
  forall k s, iter k b1 s = iter k b2 s.
Proof.
  intros H. induction k as [|k IH]; intros s; [reflexivity|]. cbn [iter]. rewrite H.
  destruct (b2 s) as [[s'|r]| |]; cbn [bind]; auto.
Qed.

Section P.
  Context {A : Type}.
  Implicit Types (m xs ys : list A) (first last result k : nat).

  (** The loop common to all front-to-back copying algorithms. *)
  Definition emit (p : A -> bool) (g : A -> A) (k : nat) (m : list A) (first last result : nat)
      : res (list A * nat) :=
    iter k (fun '((m, first, result) : list A * nat * nat) =>
      if first =? last then Ok (inr (m, result))
      else
        x <- rd m first ;;
        if p x then m <- wr m result (g x) ;; Ok (inl (m, S first, S result))
        else Ok (inl (m, S first, result)))
      (m, first, result).

  Lemma filter_len (p : A -> bool) xs : length (filter p xs) <= length xs.
  Proof. induction xs as [|x t IH]; cbn; [lia|]. destruct (p x); cbn; lia. Qed.

  Lemma emit_ok p g k m first last result :
    valid m first last -> forward_safe first last result ->
    result + length (filter p (slice m first last)) <= length m -> last - first < k ->
    emit p g k m first last result =
      Ok (paste m result (map g (filter p (slice m first last))),
          result + length (filter p (slice m first last))).
  Proof.
    intros [V1 V2] FS HR Hk. apply wp_det. unfold emit.
    set (out f := map g (filter p (slice m first f))).
    assert (Hout : forall f, length (out f) = length (filter p (slice m first f))).
    { intros f. apply map_length. }
    apply (wp_iter (fun '((m', f, r) : list A * nat * nat) =>
      first <= f <= last /\ m' = paste m result (out f) /\ r = result + length (out f))
      (fun '((m', f, r) : list A * nat * nat) => last - f)); [|repeat split; try lia|lia].
    2:{ unfold out. rewrite slice_nil by lia. symmetry. apply paste_nil. }
    2:{ unfold out. rewrite slice_nil by lia. cbn. lia. }
    intros [[m' f] r] (Hf & -> & ->).
    destruct (Nat.eqb_spec f last) as [->|N].
    - apply wp_ok. unfold out. now rewrite map_length.
    - destruct (nth_error_ex m f ltac:(lia)) as [x Hx].
      assert (HS : slice m first (S f) = slice m first f ++ [x]) by (apply slice_snoc; [lia|exact Hx]).
      assert (HL : length (filter p (slice m first (S f))) <= length (filter p (slice m first last))).
      { rewrite (slice_app m first (S f) last) by lia. rewrite filter_app, app_length. lia. }
      assert (Hlen : length (out f) <= f - first).
      { rewrite Hout. etransitivity; [apply filter_len|]. rewrite slice_length by lia. lia. }
      assert (Hmono : length (out f) <= length (filter p (slice m first (S f)))).
      { rewrite HS, filter_app, app_length, Hout. lia. }
      apply wp_bind, (wp_rd _ _ x).
      { rewrite nth_paste_out; [exact Hx|lia|]. destruct FS; lia. }
      assert (HO : out (S f) = out f ++ (if p x then [g x] else [])).
      { unfold out. rewrite HS, filter_app, map_app. cbn. now destruct (p x). }
      destruct (p x) eqn:Px.
      + assert (result + length (out f) < length m).
        { rewrite HS, filter_app, app_length in HL. cbn in HL. rewrite Px in HL. cbn in HL. rewrite Hout. lia. }
        apply wp_bind, wp_wr; [rewrite paste_length; lia|].
        apply wp_ok. rewrite paste_snoc by lia. rewrite HO.
        split; [|lia]. split; [lia|]. split; [reflexivity|]. rewrite app_length. cbn. lia.
      + rewrite app_nil_r in HO. apply wp_ok. rewrite HO. repeat split; lia.
  Qed.

  Lemma filter_true xs : filter (fun _ => true) xs = xs.
  Proof. induction xs as [|x t IH]; cbn; [reflexivity|]. now rewrite IH. Qed.

  Lemma rd_twice {B} m i (f : A -> A -> res B) :
    (x <- rd m i ;; y <- rd m i ;; f x y) = (x <- rd m i ;; f x x).
  Proof. destruct (rd m i); reflexivity. Qed.

  Lemma copy_correct_lemma k m first last result :
    valid m first last -> forward_safe first last result ->
    result + (last - first) <= length m -> last - first < k ->
    copy k m first last result = Ok (paste m result (slice m first last), result + (last - first)).
  Proof.
    intros V FS HR Hk.
    pose proof (emit_ok (fun _ => true) (fun x => x) k m first last result V FS) as H.
    rewrite filter_true, map_id, slice_length in H by apply V. apply H; assumption.
  Qed.

  Lemma move_correct_lemma k m first last result :
    valid m first last -> forward_safe first last result ->
    result + (last - first) <= length m -> last - first < k ->
    move k m first last result = Ok (paste m result (slice m first last), result + (last - first)).
  Proof. exact (copy_correct_lemma k m first last result). Qed.

  Lemma transform_correct_lemma op k m first last result :
    valid m first last -> forward_safe first last result ->
    result + (last - first) <= length m -> last - first < k ->
    transform k m first last result op = Ok (paste m result (map op (slice m first last)), result + (last - first)).
  Proof.
    intros V FS HR Hk.
    pose proof (emit_ok (fun _ => true) op k m first last result V FS) as H.
    rewrite filter_true, slice_length in H by apply V. apply H; assumption.
  Qed.

  Lemma clamp_range_correct_lemma comp k m first last result low high :
    valid m first last -> forward_safe first last result ->
    result + (last - first) <= length m -> last - first < k ->
    clamp_range comp k m first last result low high =
      Ok (paste m result (map (fun v => if comp v low then low else if comp high v then high else v)
            (slice m first last)), result + (last - first)).
  Proof.
    intros V FS HR Hk.
    pose proof (emit_ok (fun _ => true) (fun v => if comp v low then low else if comp high v then high else v)
      k m first last result V FS) as H.
    rewrite filter_true, slice_length in H by apply V. apply H; assumption.
  Qed.

  Lemma copy_if_correct_lemma p k m first last result :
    valid m first last -> forward_safe first last result ->
    result + length (filter p (slice m first last)) <= length m -> last - first < k ->
    copy_if k m first last result p =
      Ok (paste m result (filter p (slice m first last)), result + length (filter p (slice m first last))).
  Proof.
    intros V FS HR Hk.
    pose proof (emit_ok p (fun x => x) k m first last result V FS HR Hk) as H. rewrite map_id in H.
    rewrite <- H. apply iter_ext. intros [[m' f] r].
    destruct (f =? last); [reflexivity|]. destruct (rd m' f) as [x| |]; cbn [bind]; try reflexivity.
  Qed.

  Lemma remove_copy_if_correct_lemma p k m first last result :
    valid m first last -> forward_safe first last result ->
    result + length (filter (fun x => negb (p x)) (slice m first last)) <= length m -> last - first < k ->
    remove_copy_if k m first last result p =
      Ok (paste m result (filter (fun x => negb (p x)) (slice m first last)),
          result + length (filter (fun x => negb (p x)) (slice m first last))).
  Proof. exact (copy_if_correct_lemma (fun x => negb (p x)) k m first last result). Qed.

  Lemma remove_if_correct_lemma p k m first last :
    valid m first last -> last - first < k ->
    remove_if k m first last p =
      Ok (paste m first (filter (fun x => negb (p x)) (slice m first last)),
          first + length (filter (fun x => negb (p x)) (slice m first last))).
  Proof.
    intros V Hk. apply (remove_copy_if_correct_lemma p k m first last first V); [left; lia| |exact Hk].
    pose proof (filter_len (fun x => negb (p x)) (slice m first last)) as H.
    destruct V. rewrite slice_length in H by lia. lia.
  Qed.

  Lemma remove_correct_lemma {B} (eqb : A -> B -> bool) v k m first last :
    valid m first last -> last - first < k ->
    remove eqb k m first last v =
      Ok (paste m first (filter (fun x => negb (eqb x v)) (slice m first last)),
          first + length (filter (fun x => negb (eqb x v)) (slice m first last))).
  Proof. exact (remove_if_correct_lemma (fun x => eqb x v) k m first last). Qed.

  Lemma replace_copy_if_correct_lemma p new k m first last result :
    valid m first last -> forward_safe first last result ->
    result + (last - first) <= length m -> last - first < k ->
    replace_copy_if k m first last result p new =
      Ok (paste m result (map (fun x => if p x then new else x) (slice m first last)), result + (last - first)).
  Proof.
    intros V FS HR Hk.
    pose proof (emit_ok (fun _ => true) (fun x => if p x then new else x) k m first last result V FS) as H.
    rewrite filter_true, slice_length in H by apply V. rewrite <- H by assumption.
    apply iter_ext. intros [[m' f] r].
    destruct (f =? last); [reflexivity|]. destruct (rd m' f) as [x| |]; cbn [bind]; try reflexivity.
    destruct (p x); reflexivity.
  Qed.

  Lemma copy_n_correct_lemma k m first n result :
    first + n <= length m -> forward_safe first (first + n) result ->
    result + n <= length m -> n < k ->
    copy_n k m first n result = Ok (paste m result (slice m first (first + n)), result + n).
  Proof.
    intros V2 FS HR Hk. apply wp_det. unfold copy_n.
    apply (wp_iter (fun '((m', i, f, r) : list A * nat * nat * nat) =>
      i <= n /\ f = first + i /\ m' = paste m result (slice m first (first + i)) /\ r = result + i)
      (fun '((m', i, f, r) : list A * nat * nat * nat) => n - i)); [|repeat split; try lia|lia].
    2:{ rewrite slice_nil by lia. symmetry. apply paste_nil. }
    intros [[[m' i] f] r] (Hi & -> & -> & ->).
    assert (HL : length (slice m first (first + i)) = i) by (rewrite slice_length; lia).
    destruct (Nat.ltb_spec i n) as [C|C].
    - destruct (nth_error_ex m (first + i) ltac:(lia)) as [x Hx].
      apply wp_bind, (wp_rd _ _ x). { rewrite nth_paste_out; [exact Hx|lia|]. destruct FS; lia. }
      apply wp_bind, wp_wr; [rewrite paste_length; lia|]. apply wp_ok.
      split; [|lia]. repeat split; try lia.
      replace (result + i) with (result + length (slice m first (first + i))) by lia.
      rewrite paste_snoc by lia. replace (first + S i) with (S (first + i)) by lia.
      now rewrite (slice_snoc m first (first + i) x) by (auto; lia).
    - apply wp_ok. replace i with n by lia. reflexivity.
  Qed.

  (** ** copy_while, copy_until *)
  Lemma prefix_while_all (p : A -> bool) xs : forallb p xs = true -> prefix_while p xs = xs.
  Proof. induction xs as [|x t IH]; cbn; [auto|]. destruct (p x); [|discriminate]. cbn. intros H. now rewrite IH. Qed.

  Lemma prefix_while_stop (p : A -> bool) xs y ys : forallb p xs = true -> p y = false ->
    prefix_while p (xs ++ y :: ys) = xs.
  Proof.
    intros H Hy. induction xs as [|x t IH]; cbn in *; [now rewrite Hy|].
    destruct (p x); [|discriminate]. now rewrite IH.
  Qed.

  Lemma copy_while_correct_lemma p k m first last result :
    valid m first last -> forward_safe first last result ->
    result + length (prefix_while p (slice m first last)) <= length m -> last - first < k ->
    copy_while k m first last result p =
      Ok (paste m result (prefix_while p (slice m first last)),
          first + length (prefix_while p (slice m first last)),
          result + length (prefix_while p (slice m first last))).
  Proof.
    intros [V1 V2] FS HR Hk. apply wp_det. unfold copy_while.
    apply (wp_iter (fun '((m', f, r) : list A * nat * nat) =>
      first <= f <= last /\ forallb p (slice m first f) = true /\ result + (f - first) <= length m /\
      m' = paste m result (slice m first f) /\ r = result + (f - first))
      (fun '((m', f, r) : list A * nat * nat) => last - f)); [|repeat split; try lia|lia].
    2:{ rewrite slice_nil by lia. reflexivity. }
    2:{ rewrite slice_nil by lia. symmetry. apply paste_nil. }
    intros [[m' f] r] (Hf & Hall & HR' & -> & ->).
    assert (HL : length (slice m first f) = f - first) by (rewrite slice_length; lia).
    destruct (Nat.eqb_spec f last) as [->|N].
    - apply wp_ok. rewrite prefix_while_all by exact Hall. rewrite HL. f_equal. f_equal. lia.
    - destruct (nth_error_ex m f ltac:(lia)) as [x Hx].
      assert (Hx' : nth_error (paste m result (slice m first f)) f = Some x).
      { rewrite nth_paste_out; [exact Hx|lia|]. destruct FS; lia. }
      apply wp_bind, (wp_rd _ _ x); [exact Hx'|].
      destruct (p x) eqn:Px.
      + apply wp_bind, (wp_rd _ _ x); [exact Hx'|].
        assert (Hsn : slice m first (S f) = slice m first f ++ [x]) by (apply slice_snoc; [lia|exact Hx]).
        assert (Hall' : forallb p (slice m first (S f)) = true).
        { rewrite Hsn, forallb_app, Hall. cbn. now rewrite Px. }
        assert (result + S (f - first) <= length m).
        { etransitivity; [|exact HR]. rewrite (slice_app m first (S f) last) by lia.
          assert (G : forall a b, forallb p a = true -> length a <= length (prefix_while p (a ++ b))).
          { clear. induction a as [|y a IH]; intros b H; cbn in *; [lia|]. destruct (p y); [|discriminate].
            cbn in *. specialize (IH b H). lia. }
          specialize (G _ (slice m (S f) last) Hall'). rewrite slice_length in G by lia. lia. }
        apply wp_bind, wp_wr; [rewrite paste_length; lia|]. apply wp_ok.
        split; [|lia]. split; [lia|]. split; [exact Hall'|]. split; [lia|]. split; [|lia].
        rewrite <- HL. rewrite paste_snoc by lia. now rewrite Hsn.
      + apply wp_ok.
        rewrite (slice_app m first f last) by lia. rewrite (slice_cons m f last x) by (auto; lia).
        rewrite prefix_while_stop by assumption. rewrite HL. f_equal. f_equal. lia.
  Qed.

  Lemma copy_until_correct_lemma p k m first last result :
    valid m first last -> forward_safe first last result ->
    result + length (prefix_while (fun x => negb (p x)) (slice m first last)) <= length m -> last - first < k ->
    copy_until k m first last result p =
      Ok (paste m result (prefix_while (fun x => negb (p x)) (slice m first last)),
          first + length (prefix_while (fun x => negb (p x)) (slice m first last)),
          result + length (prefix_while (fun x => negb (p x)) (slice m first last))).
  Proof. exact (copy_while_correct_lemma (fun x => negb (p x)) k m first last result). Qed.

  (** ** copy_backward, reverse_copy *)
  Lemma copy_backward_correct_lemma k m first last result :
    valid m first last -> backward_safe first last result ->
    last - first <= result <= length m -> last - first < k ->
    copy_backward k m first last result =
      Ok (paste m (result - (last - first)) (slice m first last), result - (last - first)).
  Proof.
    intros [V1 V2] FS HR Hk. apply wp_det. unfold copy_backward.
    apply (wp_iter (fun '((m', l, r) : list A * nat * nat) =>
      first <= l <= last /\ m' = paste m r (slice m l last) /\ r = result - (last - l))
      (fun '((m', l, r) : list A * nat * nat) => l - first)); [|repeat split; try lia|lia].
    2:{ rewrite slice_nil by lia. symmetry. apply paste_nil. }
    intros [[m' l] r] (Hl & -> & ->).
    assert (HL : length (slice m l last) = last - l) by (rewrite slice_length; lia).
    destruct (Nat.eqb_spec first l) as [->|N]; [now apply wp_ok|].
    destruct (nth_error_ex m (l - 1) ltac:(lia)) as [x Hx].
    apply wp_bind, wp_dec; [lia|].
    apply wp_bind, (wp_rd _ _ x). { rewrite nth_paste_out; [exact Hx|lia|]. destruct FS; lia. }
    apply wp_bind, wp_dec; [lia|].
    apply wp_bind, wp_wr; [rewrite paste_length; lia|]. apply wp_ok.
    split; [|lia]. split; [lia|]. split; [|lia].
    rewrite paste_cons by lia. f_equal. symmetry.
    replace (slice m l last) with (slice m (S (l - 1)) last) by (f_equal; lia).
    apply slice_cons; [lia|exact Hx].
  Qed.

  Lemma reverse_copy_correct_lemma k m first last result :
    valid m first last -> last <= result \/ result + (last - first) <= first ->
    result + (last - first) <= length m -> last - first < k ->
    reverse_copy k m first last result = Ok (paste m result (rev (slice m first last)), result + (last - first)).
  Proof.
    intros [V1 V2] FS HR Hk. apply wp_det. unfold reverse_copy.
    apply (wp_iter (fun '((m', l, r) : list A * nat * nat) =>
      first <= l <= last /\ m' = paste m result (rev (slice m l last)) /\ r = result + (last - l))
      (fun '((m', l, r) : list A * nat * nat) => l - first)); [|repeat split; try lia|lia].
    2:{ rewrite slice_nil by lia. symmetry. apply paste_nil. }
    intros [[m' l] r] (Hl & -> & ->).
    assert (HL : length (rev (slice m l last)) = last - l) by (rewrite rev_length, slice_length; lia).
    destruct (Nat.eqb_spec first l) as [->|N]; [now apply wp_ok|].
    destruct (nth_error_ex m (l - 1) ltac:(lia)) as [x Hx].
    apply wp_bind, wp_dec; [lia|].
    apply wp_bind, (wp_rd _ _ x). { rewrite nth_paste_out; [exact Hx|lia|]. destruct FS; lia. }
    apply wp_bind, wp_wr; [rewrite paste_length; lia|]. apply wp_ok.
    split; [|lia]. split; [lia|]. split; [|lia].
    rewrite <- HL at 1. rewrite paste_snoc by lia. f_equal.
    change (rev (slice m l last) ++ [x]) with (rev (x :: slice m l last)). f_equal. symmetry.
    replace (slice m l last) with (slice m (S (l - 1)) last) by (f_equal; lia).
    apply slice_cons; [lia|exact Hx].
  Qed.

  (** ** fill, generate, replace, for_each *)
  Lemma repeat_snoc (x : A) n : repeat x (S n) = repeat x n ++ [x].
  Proof. induction n as [|n IH]; [reflexivity|]. cbn [repeat app] in *. now rewrite IH at 1. Qed.

  Lemma fill_n_correct_lemma k m first n v : first + n <= length m -> n < k ->
    fill_n k m first n v = Ok (paste m first (repeat v n), first + n).
  Proof.
    intros H Hk. apply wp_det. unfold fill_n.
    apply (wp_iter (fun '((m', f, i) : list A * nat * nat) =>
      i <= n /\ f = first + (n - i) /\ m' = paste m first (repeat v (n - i)))
      (fun '((m', f, i) : list A * nat * nat) => i)); [|repeat split; try lia|lia].
    2:{ rewrite Nat.sub_diag. symmetry. apply paste_nil. }
    intros [[m' f] i] (Hi & -> & ->).
    destruct (Nat.ltb_spec 0 i) as [C|C].
    - apply wp_bind, wp_wr; [rewrite paste_length; rewrite ?repeat_length; lia|]. apply wp_ok.
      split; [|lia]. split; [lia|]. split; [lia|].
      replace (n - (i - 1)) with (S (n - i)) by lia. rewrite repeat_snoc.
      replace (first + (n - i)) with (first + length (repeat v (n - i))) by (rewrite repeat_length; lia).
      apply paste_snoc. rewrite repeat_length. lia.
    - apply wp_ok. now replace (n - i) with n by lia.
  Qed.

  Lemma fill_correct_lemma k m first last v : valid m first last -> last - first < k ->
    fill k m first last v = Ok (paste m first (repeat v (last - first))).
  Proof.
    intros [V1 V2] Hk. apply wp_det. unfold fill.
    apply (wp_iter (fun '((m', f) : list A * nat) =>
      first <= f <= last /\ m' = paste m first (repeat v (f - first)))
      (fun '((m', f) : list A * nat) => last - f)); [|repeat split; try lia|lia].
    2:{ rewrite Nat.sub_diag. symmetry. apply paste_nil. }
    intros [m' f] (Hi & ->).
    destruct (Nat.eqb_spec f last) as [->|N]; [now apply wp_ok|].
    apply wp_bind, wp_wr; [rewrite paste_length; rewrite ?repeat_length; lia|]. apply wp_ok.
    split; [|lia]. split; [lia|].
    replace (S f - first) with (S (f - first)) by lia. rewrite repeat_snoc.
    replace f with (first + length (repeat v (f - first))) at 2 by (rewrite repeat_length; lia).
    apply paste_snoc. rewrite repeat_length. lia.
  Qed.

  Lemma draws_snoc {G} (gen : G -> A * G) n : forall g,
    draws gen (S n) g = let '(xs, g1) := draws gen n g in let '(x, g2) := gen g1 in (xs ++ [x], g2).
  Proof.
    induction n as [|n IH]; intros g.
    - cbn. destruct (gen g). reflexivity.
    - change (draws gen (S (S n)) g) with
        (let '(x, g1) := gen g in let '(xs, g2) := draws gen (S n) g1 in (x :: xs, g2)).
      change (draws gen (S n) g) with
        (let '(x, g1) := gen g in let '(xs, g2) := draws gen n g1 in (x :: xs, g2)).
      destruct (gen g) as [x g1]. rewrite (IH g1). destruct (draws gen n g1) as [ys g2].
      destruct (gen g2). reflexivity.
  Qed.

  Lemma draws_length {G} (gen : G -> A * G) n : forall g, length (fst (draws gen n g)) = n.
  Proof.
    induction n as [|n IH]; intros g; [reflexivity|]. cbn [draws]. destruct (gen g) as [x g1].
    specialize (IH g1). destruct (draws gen n g1). cbn in *. lia.
  Qed.

  Lemma generate_n_correct_lemma {G} (gen : G -> A * G) g k m first n : first + n <= length m -> n < k ->
    generate_n k m first n gen g =
      Ok (paste m first (fst (draws gen n g)), first + n, snd (draws gen n g)).
  Proof.
    intros H Hk. apply wp_det. unfold generate_n.
    apply (wp_iter (fun '((m', f, i, g') : list A * nat * nat * G) =>
      i <= n /\ f = first + (n - i) /\ m' = paste m first (fst (draws gen (n - i) g)) /\
      g' = snd (draws gen (n - i) g))
      (fun '((m', f, i, g') : list A * nat * nat * G) => i)); [|repeat split; try lia|lia].
    2:{ rewrite Nat.sub_diag. symmetry. apply paste_nil. }
    2:{ rewrite Nat.sub_diag. reflexivity. }
    intros [[[m' f] i] g'] (Hi & -> & -> & ->).
    pose proof (draws_length gen (n - i) g) as HL.
    destruct (Nat.ltb_spec 0 i) as [C|C].
    - replace (n - (i - 1)) with (S (n - i)) by lia.
      pose proof (draws_snoc gen (n - i) g) as HS.
      destruct (draws gen (n - i) g) as [xs g1]. cbn [fst snd] in *.
      destruct (gen g1) as [x g2] eqn:Eg.
      apply wp_bind, wp_wr; [rewrite paste_length; lia|]. apply wp_ok. rewrite ?Nat.sub_0_r.
      split; [|lia]. replace (n - (i - 1)) with (S (n - i)) by lia. rewrite HS. cbn [fst snd].
      split; [lia|]. split; [lia|]. split; [|reflexivity].
      rewrite <- HL at 1. apply paste_snoc. lia.
    - apply wp_ok. now replace (n - i) with n by lia.
  Qed.

  Lemma generate_correct_lemma {G} (gen : G -> A * G) g k m first last : valid m first last -> last - first < k ->
    generate k m first last gen g =
      Ok (paste m first (fst (draws gen (last - first) g)), snd (draws gen (last - first) g)).
  Proof.
    intros [V1 V2] Hk. apply wp_det. unfold generate.
    apply (wp_iter (fun '((m', f, g') : list A * nat * G) =>
      first <= f <= last /\ m' = paste m first (fst (draws gen (f - first) g)) /\
      g' = snd (draws gen (f - first) g))
      (fun '((m', f, g') : list A * nat * G) => last - f)); [|repeat split; try lia|lia].
    2:{ rewrite Nat.sub_diag. symmetry. apply paste_nil. }
    2:{ rewrite Nat.sub_diag. reflexivity. }
    intros [[m' f] g'] (Hi & -> & ->).
    pose proof (draws_length gen (f - first) g) as HL.
    destruct (Nat.eqb_spec f last) as [->|N]; [now apply wp_ok|].
    pose proof (draws_snoc gen (f - first) g) as HS.
    destruct (draws gen (f - first) g) as [xs g1]. cbn [fst snd] in *.
    destruct (gen g1) as [x g2] eqn:Eg.
    apply wp_bind, wp_wr; [rewrite paste_length; lia|]. apply wp_ok.
    split; [|lia]. replace (S f - first) with (S (f - first)) by lia. rewrite HS. cbn [fst snd].
    split; [lia|]. split; [|reflexivity].
    replace f with (first + length xs) by lia. apply paste_snoc. lia.
  Qed.

  Lemma upd_id m i x : nth_error m i = Some x -> upd m i x = m.
  Proof.
    intros H. apply list_ext. intros j. destruct (Nat.eq_dec i j) as [->|N].
    - rewrite upd_eq; [auto|]. eapply nth_error_lt; eauto.
    - now apply upd_neq.
  Qed.

  Lemma replace_if_correct_lemma p new k m first last : valid m first last -> last - first < k ->
    replace_if k m first last p new =
      Ok (paste m first (map (fun x => if p x then new else x) (slice m first last))).
  Proof.
    intros [V1 V2] Hk. apply wp_det. unfold replace_if.
    set (g := fun x => if p x then new else x).
    apply (wp_iter (fun '((m', f) : list A * nat) =>
      first <= f <= last /\ m' = paste m first (map g (slice m first f)))
      (fun '((m', f) : list A * nat) => last - f)); [|repeat split; try lia|lia].
    2:{ rewrite slice_nil by lia. symmetry. apply paste_nil. }
    intros [m' f] (Hf & ->).
    assert (HL : length (map g (slice m first f)) = f - first) by (rewrite map_length, slice_length; lia).
    destruct (Nat.eqb_spec f last) as [->|N]; [now apply wp_ok|].
    destruct (nth_error_ex m f ltac:(lia)) as [x Hx].
    assert (Hx' : nth_error (paste m first (map g (slice m first f))) f = Some x).
    { rewrite nth_paste_out; [exact Hx|lia|]. lia. }
    assert (HS : map g (slice m first (S f)) = map g (slice m first f) ++ [g x]).
    { rewrite (slice_snoc m first f x) by (auto; lia). now rewrite map_app. }
    assert (HU : upd (paste m first (map g (slice m first f))) f (g x) = paste m first (map g (slice m first (S f)))).
    { replace f with (first + length (map g (slice m first f))) at 2 by lia.
      rewrite paste_snoc by lia. now rewrite HS. }
    apply wp_bind, (wp_rd _ _ x); [exact Hx'|]. unfold g in HU at 2.
    destruct (p x) eqn:Px.
    - apply wp_bind, wp_wr; [rewrite paste_length; lia|]. apply wp_ok.
      split; [|lia]. split; [lia|]. exact HU.
    - apply wp_ok. split; [|lia]. split; [lia|]. rewrite <- HU. symmetry. now apply upd_id.
  Qed.

  Lemma replace_correct_lemma {B} (eqb : A -> B -> bool) old new k m first last :
    valid m first last -> last - first < k ->
    replace eqb k m first last old new =
      Ok (paste m first (map (fun x => if eqb x old then new else x) (slice m first last))).
  Proof. exact (replace_if_correct_lemma (fun x => eqb x old) new k m first last). Qed.

  Lemma map_state_snoc {F} (f : F -> A -> F * A) x xs : forall st,
    map_state f st (xs ++ [x]) =
      let '(ys, st1) := map_state f st xs in let '(st2, y) := f st1 x in (ys ++ [y], st2).
  Proof.
    induction xs as [|z t IH]; intros st; cbn [map_state app].
    - destruct (f st x). reflexivity.
    - destruct (f st z) as [st1 y]. rewrite IH. destruct (map_state f st1 t) as [ys st2].
      destruct (f st2 x). reflexivity.
  Qed.

  Lemma map_state_length {F} (f : F -> A -> F * A) xs : forall st, length (fst (map_state f st xs)) = length xs.
  Proof.
    induction xs as [|z t IH]; intros st; cbn [map_state]; [reflexivity|].
    destruct (f st z) as [st1 y]. specialize (IH st1). destruct (map_state f st1 t). cbn in *. lia.
  Qed.

  Lemma for_each_correct_lemma {F} (f : F -> A -> F * A) st k m first last :
    valid m first last -> last - first < k ->
    for_each k m first last f st =
      Ok (paste m first (fst (map_state f st (slice m first last))), snd (map_state f st (slice m first last))).
  Proof.
    intros [V1 V2] Hk. apply wp_det. unfold for_each.
    apply (wp_iter (fun '((m', i, st') : list A * nat * F) =>
      first <= i <= last /\ m' = paste m first (fst (map_state f st (slice m first i))) /\
      st' = snd (map_state f st (slice m first i)))
      (fun '((m', i, st') : list A * nat * F) => last - i)); [|repeat split; try lia|lia].
    2:{ rewrite slice_nil by lia. symmetry. apply paste_nil. }
    2:{ rewrite slice_nil by lia. reflexivity. }
    intros [[m' i] st'] (Hi & -> & ->).
    pose proof (map_state_length f (slice m first i) st) as HL. rewrite slice_length in HL by lia.
    destruct (Nat.eqb_spec i last) as [->|N]; [now apply wp_ok|].
    destruct (nth_error_ex m i ltac:(lia)) as [x Hx].
    apply wp_bind, (wp_rd _ _ x). { rewrite nth_paste_out; [exact Hx|lia|lia]. }
    pose proof (map_state_snoc f x (slice m first i) st) as HS.
    destruct (map_state f st (slice m first i)) as [ys st1]. cbn [fst snd] in *.
    destruct (f st1 x) as [st2 y].
    apply wp_bind, wp_wr; [rewrite paste_length; lia|]. apply wp_ok.
    split; [|lia]. rewrite (slice_snoc m first i x) by (auto; lia). rewrite HS. cbn [fst snd].
    split; [lia|]. split; [|reflexivity].
    replace i with (first + length ys) by lia. apply paste_snoc. lia.
  Qed.

  (** ** transform2 *)
  Lemma map2_snoc (op : A -> A -> A) xs : forall ys x y, length xs = length ys ->
    map2 op (xs ++ [x]) (ys ++ [y]) = map2 op xs ys ++ [op x y].
  Proof.
    induction xs as [|a t IH]; intros [|b u] x y H; cbn in *; try lia; [reflexivity|].
    rewrite IH by lia. reflexivity.
  Qed.

  Lemma map2_length (op : A -> A -> A) xs : forall ys, length xs = length ys -> length (map2 op xs ys) = length xs.
  Proof. induction xs as [|a t IH]; intros [|b u] H; cbn in *; try lia. now rewrite IH by lia. Qed.

  Lemma transform2_correct_lemma op k m first1 last1 first2 result :
    valid m first1 last1 -> first2 + (last1 - first1) <= length m ->
    forward_safe first1 last1 result -> forward_safe first2 (first2 + (last1 - first1)) result ->
    result + (last1 - first1) <= length m -> last1 - first1 < k ->
    transform2 k m first1 last1 first2 result op =
      Ok (paste m result (map2 op (slice m first1 last1) (slice m first2 (first2 + (last1 - first1)))),
          result + (last1 - first1)).
  Proof.
    intros [V1 V2] V3 FS1 FS2 HR Hk. apply wp_det. unfold transform2.
    set (out i := map2 op (slice m first1 (first1 + i)) (slice m first2 (first2 + i))).
    assert (HL : forall i, i <= last1 - first1 -> length (out i) = i).
    { intros i Hi. unfold out. rewrite map2_length; rewrite !slice_length; lia. }
    apply (wp_iter (fun '((m', f, f2, r) : list A * nat * nat * nat) =>
      exists i, i <= last1 - first1 /\ f = first1 + i /\ f2 = first2 + i /\
      m' = paste m result (out i) /\ r = result + i)
      (fun '((m', f, f2, r) : list A * nat * nat * nat) => last1 - f)); [| |lia].
    2:{ exists 0. unfold out. rewrite !slice_nil by lia. cbn [map2]. rewrite paste_nil. repeat split; lia. }
    intros [[[m' f] f2] r] (i & Hi & -> & -> & -> & ->). specialize (HL i Hi) as HLi.
    destruct (Nat.eqb_spec (first1 + i) last1) as [E|N].
    - apply wp_ok. rewrite <- E. unfold out. replace (first1 + i - first1) with i by lia. reflexivity.
    - destruct (nth_error_ex m (first1 + i) ltac:(lia)) as [x Hx].
      destruct (nth_error_ex m (first2 + i) ltac:(lia)) as [y Hy].
      apply wp_bind, (wp_rd _ _ x). { rewrite nth_paste_out; [exact Hx|lia|]. destruct FS1; lia. }
      apply wp_bind, (wp_rd _ _ y). { rewrite nth_paste_out; [exact Hy|lia|]. destruct FS2; lia. }
      apply wp_bind, wp_wr; [rewrite paste_length; lia|]. apply wp_ok.
      split; [|lia]. exists (S i). repeat split; try lia.
      replace (result + i) with (result + length (out i)) by lia. rewrite paste_snoc by lia. f_equal. unfold out.
      rewrite <- !plus_n_Sm. rewrite (slice_snoc m first1 (first1 + i) x), (slice_snoc m first2 (first2 + i) y) by (auto; lia).
      symmetry. apply map2_snoc. rewrite !slice_length; lia.
  Qed.

  (** ** unique *)
  Lemma keep_snoc (pred : A -> A -> bool) xs x : forall v0 ys v, v0 :: keep_from pred v0 xs = ys ++ [v] ->
    v0 :: keep_from pred v0 (xs ++ [x]) = if pred v x then ys ++ [v] else (ys ++ [v]) ++ [x].
  Proof.
    induction xs as [|z t IH]; intros v0 ys v H; cbn [keep_from app] in *.
    - destruct ys as [|y ys]; [|destruct ys; discriminate]. cbn in H. injection H as ->. cbn. now destruct (pred v x).
    - destruct (pred v0 z); [now apply IH|].
      destruct ys as [|y ys]; [discriminate|]. cbn in H. injection H as -> H.
      rewrite (IH z ys v H). now destruct (pred v x).
  Qed.

  Lemma keep_length (pred : A -> A -> bool) xs : length (keep_distinct pred xs) <= length xs.
  Proof.
    destruct xs as [|x t]; cbn; [lia|]. apply le_n_S. revert x. induction t as [|z t IH]; intros x; cbn; [lia|].
    destruct (pred x z); [specialize (IH x)|specialize (IH z)]; cbn; lia.
  Qed.

  Lemma keep_distinct_snoc (pred : A -> A -> bool) xs x ys v : keep_distinct pred xs = ys ++ [v] ->
    keep_distinct pred (xs ++ [x]) = if pred v x then ys ++ [v] else (ys ++ [v]) ++ [x].
  Proof. destruct xs as [|z t]; cbn [keep_distinct app]; [now destruct ys|]. apply keep_snoc. Qed.

  Lemma keep_distinct_app (pred : A -> A -> bool) xs ys :
    length (keep_distinct pred xs) <= length (keep_distinct pred (xs ++ ys)).
  Proof.
    destruct xs as [|z t]; cbn [keep_distinct app length]; [lia|]. apply le_n_S.
    revert z. induction t as [|x t IH]; intros z; cbn; [lia|]. destruct (pred z x); cbn; [apply IH|].
    specialize (IH x). lia.
  Qed.

  Lemma unique_correct_lemma pred k m first last : valid m first last -> last - first < k ->
    unique pred k m first last =
      Ok (paste m first (keep_distinct pred (slice m first last)),
          first + length (keep_distinct pred (slice m first last))).
  Proof.
    intros [V1 V2] Hk. apply wp_det. unfold unique.
    destruct (Nat.eqb_spec first last) as [->|N].
    { apply wp_ok. rewrite slice_nil by lia. cbn. now rewrite paste_nil, Nat.add_0_r. }
    destruct (nth_error_ex m first ltac:(lia)) as [x0 Hx0].
    apply wp_bind, (wp_rd _ _ x0); [exact Hx0|].
    apply wp_bind.
    apply (wp_iter (fun '((m', f, r, v) : list A * nat * nat * A) =>
      first < f <= last /\ exists ys, keep_distinct pred (slice m first f) = ys ++ [v] /\
      m' = paste m first ys /\ r = first + length ys)
      (fun '((m', f, r, v) : list A * nat * nat * A) => last - f)); [| |lia].
    2:{ split; [lia|]. exists []. rewrite (slice_cons m first (S first) x0) by (auto; lia).
        rewrite slice_nil by lia. rewrite paste_nil. repeat split; cbn; lia. }
    intros [[[m' f] r] v] (Hf & ys & Hys & -> & ->).
    assert (HL : length ys < f - first).
    { pose proof (keep_length pred (slice m first f)) as K. rewrite Hys, app_length, slice_length in K by lia.
      cbn in K. lia. }
    destruct (Nat.eqb_spec f last) as [->|N'].
    - apply wp_ok. apply wp_bind, wp_wr; [rewrite paste_length; lia|]. apply wp_ok.
      rewrite paste_snoc by lia. rewrite Hys, app_length. cbn. f_equal. lia.
    - destruct (nth_error_ex m f ltac:(lia)) as [x Hx].
      apply wp_bind, (wp_rd _ _ x). { rewrite nth_paste_out; [exact Hx|lia|lia]. }
      assert (HS : slice m first (S f) = slice m first f ++ [x]) by (apply slice_snoc; [lia|exact Hx]).
      pose proof (keep_distinct_snoc pred (slice m first f) x ys v Hys) as HK. rewrite <- HS in HK.
      destruct (pred v x); cbn [negb].
      + apply wp_ok. split; [|lia]. split; [lia|]. exists ys. auto.
      + apply wp_bind, wp_wr; [rewrite paste_length; lia|].
        apply wp_bind, (wp_rd _ _ x). { rewrite upd_neq by lia. rewrite nth_paste_out; [exact Hx|lia|lia]. }
        apply wp_ok. split; [|lia]. split; [lia|]. exists (ys ++ [v]). split; [exact HK|].
        rewrite paste_snoc by lia. split; [reflexivity|]. rewrite app_length. cbn. lia.
  Qed.

  Lemma unique_copy_correct_lemma pred k m first last result :
    valid m first last -> forward_safe first last result ->
    result + length (keep_distinct pred (slice m first last)) <= length m -> last - first < k ->
    unique_copy pred k m first last result =
      Ok (paste m result (keep_distinct pred (slice m first last)),
          result + length (keep_distinct pred (slice m first last))).
  Proof.
    intros [V1 V2] FS HR Hk. apply wp_det. unfold unique_copy.
    destruct (Nat.eqb_spec first last) as [->|N].
    { apply wp_ok. rewrite slice_nil by lia. cbn. now rewrite paste_nil, Nat.add_0_r. }
    destruct (nth_error_ex m first ltac:(lia)) as [x0 Hx0].
    assert (Hroom : forall f, first <= f <= last ->
      result + length (keep_distinct pred (slice m first f)) <= length m).
    { intros f Hf. etransitivity; [|exact HR]. rewrite (slice_app m first f last) by lia.
      pose proof (keep_distinct_app pred (slice m first f) (slice m f last)). lia. }
    assert (H0 : slice m first (S first) = [x0]).
    { rewrite (slice_cons m first (S first) x0) by (auto; lia). now rewrite slice_nil by lia. }
    assert (HR1 : result < length m). { specialize (Hroom (S first) ltac:(lia)). rewrite H0 in Hroom. cbn in Hroom. lia. }
    apply wp_bind, (wp_rd _ _ x0); [exact Hx0|].
    apply wp_bind, wp_wr; [exact HR1|].
    apply (wp_iter (fun '((m', f, r, v) : list A * nat * nat * A) =>
      first < f <= last /\ exists ys, keep_distinct pred (slice m first f) = ys ++ [v] /\
      m' = paste m result (ys ++ [v]) /\ r = result + length (ys ++ [v]))
      (fun '((m', f, r, v) : list A * nat * nat * A) => last - f)); [| |lia].
    2:{ split; [lia|]. exists []. rewrite H0. split; [reflexivity|]. cbn [app length]. split; [|lia].
        pose proof (paste_snoc m result [] x0) as E. cbn [length app] in E. rewrite Nat.add_0_r, paste_nil in E.
        apply E. exact HR1. }
    intros [[[m' f] r] v] (Hf & ys & Hys & -> & ->).
    pose proof (keep_length pred (slice m first f)) as HL. rewrite Hys, slice_length in HL by lia.
    pose proof (Hroom f ltac:(lia)) as HRf. rewrite Hys in HRf.
    destruct (Nat.eqb_spec f last) as [->|N'].
    - apply wp_ok. now rewrite Hys.
    - destruct (nth_error_ex m f ltac:(lia)) as [x Hx].
      assert (Hx' : nth_error (paste m result (ys ++ [v])) f = Some x).
      { rewrite nth_paste_out; [exact Hx|lia|destruct FS; lia]. }
      apply wp_bind, (wp_rd _ _ x); [exact Hx'|].
      assert (HS : slice m first (S f) = slice m first f ++ [x]) by (apply slice_snoc; [lia|exact Hx]).
      pose proof (keep_distinct_snoc pred (slice m first f) x ys v Hys) as HK. rewrite <- HS in HK.
      pose proof (Hroom (S f) ltac:(lia)) as HRs. rewrite HK in HRs.
      destruct (pred v x); cbn [negb].
      + apply wp_ok. split; [|lia]. split; [lia|]. exists ys. auto.
      + rewrite app_length in HRs. cbn [length] in HRs.
        apply wp_bind, (wp_rd _ _ x); [exact Hx'|].
        apply wp_bind, wp_wr; [rewrite paste_length; lia|].
        apply wp_ok. split; [|lia]. split; [lia|]. exists (ys ++ [v]). split; [exact HK|].
        rewrite paste_snoc by lia. split; [reflexivity|]. rewrite (app_length (ys ++ [v])). cbn. lia.
  Qed.
End P.
