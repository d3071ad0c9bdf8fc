(** The loops of merge and of the set operations. *)
From Coq Require Import List Arith Bool Lia Sorted Permutation.
From Verif Require Import Base BaseProof SearchSpec SearchProof OrderModel OrderSpec OrderProof ListFacts
  MutModel MutSpec MutProof MutProof2 SetModel SetSpec SetProof MutProof3.
Import ListNotations.

(** What follows a loop can be moved into its last turn. *)
Lemma iter_then {S R R'} (body : S -> res (S + R)) (f : R -> res R') k : forall s,
  (r <- iter k body s ;; f r) =
  iter k (fun s => x <- body s ;; match x with inl s' => Ok (inl s') | inr r => y <- f r ;; Ok (inr y) end) s.
Proof.
  induction k as [|k IH]; intros s; [reflexivity|]. cbn [iter].
  destruct (body s) as [[s'|r]| |]; cbn [bind]; try reflexivity; [apply IH|].
  now destruct (f r).
Qed.

Section Loop.
  Context {A : Type}.
  Notation mem := (list A).

  (** One turn: what is written, and which positions advance. *)
  Variable dec : A -> A -> option A * bool * bool.
  Variables a b : bool.
  Hypothesis Hdec : forall x y, snd (fst (dec x y)) = true \/ snd (dec x y) = true.

  Definition emit1 (o : option A) : list A := match o with Some x => [x] | None => [] end.
  Definition step1 (t : bool) (i : nat) : nat := if t then S i else i.

  Definition gbody (k last1 last2 : nat) : mem * nat * nat * nat -> res (mem * nat * nat * nat + mem * nat) :=
    fun '((m, first1, first2, result) : mem * nat * nat * nat) =>
      if first1 =? last1 then
        (if b then s <- copy k m first2 last2 result ;; Ok (inr s) else Ok (inr (m, result)))
      else if first2 =? last2 then
        (if a then s <- copy k m first1 last1 result ;; Ok (inr s) else Ok (inr (m, result)))
      else
        x <- rd m first1 ;; y <- rd m first2 ;;
        let '(o, t1, t2) := dec x y in
        match o with
        | Some w => m <- wr m result w ;; Ok (inl (m, step1 t1 first1, step1 t2 first2, S result))
        | None => Ok (inl (m, step1 t1 first1, step1 t2 first2, result))
        end.

  Variable F : list A -> list A -> list A.
  Hypothesis F1 : forall ys, F [] ys = if b then ys else [].
  Hypothesis F2 : forall xs, F xs [] = if a then xs else [].
  Hypothesis F3 : forall x xt y yt, F (x :: xt) (y :: yt) =
    let '(o, t1, t2) := dec x y in
    emit1 o ++ F (if t1 then xt else x :: xt) (if t2 then yt else y :: yt).

  Lemma gloop_ok k m first1 last1 first2 last2 result :
    let out := F (slice m first1 last1) (slice m first2 last2) in
    valid m first1 last1 -> valid m first2 last2 ->
    result + length out <= length m ->
    apart first1 last1 result (result + length out) ->
    apart first2 last2 result (result + length out) ->
    (last1 - first1) + (last2 - first2) < k ->
    iter k (gbody k last1 last2) (m, first1, first2, result) = Ok (paste m result out, result + length out).
  Proof.
    intros out [V1 V1'] [V2 V2'] HR D1 D2 Hk. apply wp_det.
    apply (wp_iter (fun '((m', f1, f2, r) : mem * nat * nat * nat) =>
        first1 <= f1 <= last1 /\ first2 <= f2 <= last2 /\
        exists done, out = done ++ F (slice m f1 last1) (slice m f2 last2) /\
          m' = paste m result done /\ r = result + length done)
      (fun '((m', f1, f2, r) : mem * nat * nat * nat) => (last1 - f1) + (last2 - f2))).
    2: { split; [lia|]. split; [lia|]. exists []. rewrite paste_nil. repeat split. cbn; lia. }
    2: exact Hk.
    intros [[[m' f1] f2] r] (I1 & I2 & done & Eo & -> & ->). unfold gbody.
    assert (LO : length out = length done + length (F (slice m f1 last1) (slice m f2 last2)))
      by (rewrite Eo at 1; apply app_length).
    unfold apart in *.
    assert (Tail : forall f l first, first <= f <= l -> l <= length m ->
        out = done ++ slice m f l -> l <= result \/ result + length out <= first -> l - f < k ->
        wp (s <- copy k (paste m result done) f l (result + length done) ;;
            Ok (inr s : (mem * nat * nat * nat) + (mem * nat)))
           (fun x => match x with inl _ => False | inr s => s = (paste m result out, result + length out) end)).
    { intros f l first Hf Hl E D Hkl. assert (L : length out = length done + (l - f))
        by (rewrite E, app_length, slice_length by lia; lia).
      rewrite copy_correct_lemma.
      - cbn [bind wp]. rewrite slice_paste_out by lia. rewrite paste_app by (rewrite slice_length; lia).
        rewrite <- E. f_equal. lia.
      - split; [lia|]. rewrite paste_length; lia.
      - unfold forward_safe. lia.
      - rewrite paste_length; lia.
      - exact Hkl. }
    destruct (f1 =? last1) eqn:E1.
    { apply Nat.eqb_eq in E1. subst f1. rewrite (slice_nil m last1 last1) in Eo by lia. rewrite F1 in Eo.
      destruct b.
      - eapply wp_mono; [apply (Tail f2 last2 first2); auto; lia|]. now intros [s|s].
      - rewrite app_nil_r in Eo. cbn [wp]. now rewrite Eo. }
    destruct (f2 =? last2) eqn:E2.
    { apply Nat.eqb_eq in E2. subst f2. rewrite (slice_nil m last2 last2) in Eo by lia. rewrite F2 in Eo.
      destruct a.
      - eapply wp_mono; [apply (Tail f1 last1 first1); auto; lia|]. now intros [s|s].
      - rewrite app_nil_r in Eo. cbn [wp]. now rewrite Eo. }
    apply Nat.eqb_neq in E1, E2.
    destruct (nth_error_ex m f1 ltac:(lia)) as [x Hx]. destruct (nth_error_ex m f2 ltac:(lia)) as [y Hy].
    apply wp_bind, (wp_rd _ _ x); [rewrite nth_paste_out by lia; exact Hx|].
    apply wp_bind, (wp_rd _ _ y); [rewrite nth_paste_out by lia; exact Hy|].
    pose proof Eo as Eo2. rewrite (slice_cons m f1 last1 x), (slice_cons m f2 last2 y) in Eo2 by (auto; lia).
    rewrite F3 in Eo2. specialize (Hdec x y). destruct (dec x y) as [[o t1] t2] eqn:Ed. cbn [fst snd] in Hdec.
    assert (S1 : (if t1 then slice m (S f1) last1 else x :: slice m (S f1) last1) = slice m (step1 t1 f1) last1).
    { destruct t1; [reflexivity|]. cbn. symmetry. apply slice_cons; [lia|exact Hx]. }
    assert (S2 : (if t2 then slice m (S f2) last2 else y :: slice m (S f2) last2) = slice m (step1 t2 f2) last2).
    { destruct t2; [reflexivity|]. cbn. symmetry. apply slice_cons; [lia|exact Hy]. }
    rewrite S1, S2 in Eo2. rewrite app_assoc in Eo2.
    assert (B1 : first1 <= step1 t1 f1 <= last1) by (unfold step1; destruct t1; lia).
    assert (B2 : first2 <= step1 t2 f2 <= last2) by (unfold step1; destruct t2; lia).
    assert (B3 : (last1 - step1 t1 f1) + (last2 - step1 t2 f2) < (last1 - f1) + (last2 - f2))
      by (unfold step1; destruct t1, t2; destruct Hdec; try discriminate; lia).
    destruct o as [w|]; cbn [emit1] in Eo2.
    - assert (L2 : length out = length done + 1 + length (F (slice m (step1 t1 f1) last1) (slice m (step1 t2 f2) last2)))
        by (rewrite Eo2 at 1; rewrite !app_length; reflexivity).
      apply wp_bind, wp_wr; [rewrite paste_length; lia|]. cbn [wp].
      split; [|exact B3]. split; [exact B1|]. split; [exact B2|]. exists (done ++ [w]).
      split; [exact Eo2|]. split; [apply paste_snoc; lia|]. rewrite app_length. cbn. lia.
    - rewrite app_nil_r in Eo2. cbn [wp]. split; [|exact B3]. split; [exact B1|]. split; [exact B2|].
      exists done. auto.
  Qed.
End Loop.

Section Ops.
  Context {A : Type}.
  Variable comp : A -> A -> bool.
  Hypothesis W : strict_weak_order comp.
  Notation mem := (list A).

  Definition set_dec (a b e : bool) (x y : A) : option A * bool * bool :=
    if comp x y then (if a then Some x else None, true, false)
    else if comp y x then (if b then Some y else None, false, true)
    else (if e then Some x else None, true, true).

  Definition merge_dec (x y : A) : option A * bool * bool :=
    if comp y x then (Some y, false, true) else (Some x, true, false).

  Lemma set_loop_ok a b e k m first1 last1 first2 last2 result :
    let out := setop comp a b e (slice m first1 last1) (slice m first2 last2) in
    valid m first1 last1 -> valid m first2 last2 ->
    result + length out <= length m ->
    apart first1 last1 result (result + length out) ->
    apart first2 last2 result (result + length out) ->
    (last1 - first1) + (last2 - first2) < k ->
    iter k (gbody (set_dec a b e) a b k last1 last2) (m, first1, first2, result) =
    Ok (paste m result out, result + length out).
  Proof.
    apply gloop_ok.
    - intros x y. unfold set_dec. destruct (comp x y), (comp y x); cbn; auto.
    - apply setop_nil_l.
    - apply setop_nil_r.
    - intros x xt y yt. rewrite setop_cons. unfold set_dec.
      destruct (comp x y); [now destruct a|]. destruct (comp y x); [now destruct b|now destruct e].
  Qed.

  Lemma merge_correct_lemma k m first1 last1 first2 last2 result :
    valid m first1 last1 -> valid m first2 last2 ->
    sorted_range comp m first1 last1 -> sorted_range comp m first2 last2 ->
    (last1 - first1) + (last2 - first2) < k ->
    exists out, merge_of comp (slice m first1 last1) (slice m first2 last2) out /\
      (room m first1 last1 first2 last2 result out ->
       merge comp k m first1 last1 first2 last2 result = Ok (paste m result out, result + length out)).
  Proof.
    intros V1 V2 S1 S2 Hk. exists (mrg comp (slice m first1 last1) (slice m first2 last2)).
    rewrite (sorted_range_slice comp W) in S1, S2 by assumption.
    split; [now apply merge_of_mrg|]. intros (R1 & R2 & R3).
    rewrite <- (gloop_ok merge_dec true true) with (F := mrg comp) (k := k) (last1 := last1) (first1 := first1)
      (last2 := last2) (first2 := first2); try assumption.
    - unfold merge. apply iter_ext. intros [[[m' f1] f2] r]. unfold gbody.
      destruct (f1 =? last1); [reflexivity|]. destruct (f2 =? last2); [reflexivity|].
      unfold rd. destruct (nth_error m' f1) as [x|], (nth_error m' f2) as [y|]; cbn [bind]; try reflexivity.
      unfold merge_dec. now destruct (comp y x).
    - intros x y. unfold merge_dec. destruct (comp y x); cbn; auto.
    - apply mrg_nil_l.
    - apply mrg_nil_r.
    - intros x xt y yt. rewrite mrg_cons. unfold merge_dec. now destruct (comp y x).
  Qed.

  Ltac set_body := intros [[[m' f1] f2] r]; unfold gbody, set_dec;
    destruct (f1 =? _); [cbn [negb andb bind]; try reflexivity|];
    destruct (f2 =? _); [cbn [negb andb bind]; try reflexivity|]; cbn [negb andb bind];
    unfold rd; destruct (nth_error m' f1) as [x|]; cbn [bind]; try reflexivity;
    destruct (nth_error m' f2) as [y|]; cbn [bind]; try reflexivity;
    destruct (comp x y); [|destruct (comp y x)]; try reflexivity.

  Lemma set_union_correct_lemma k m first1 last1 first2 last2 result :
    valid m first1 last1 -> valid m first2 last2 ->
    sorted_range comp m first1 last1 -> sorted_range comp m first2 last2 ->
    (last1 - first1) + (last2 - first2) < k ->
    exists out, union_of comp (slice m first1 last1) (slice m first2 last2) out /\
      (room m first1 last1 first2 last2 result out ->
       set_union comp k m first1 last1 first2 last2 result = Ok (paste m result out, result + length out)).
  Proof.
    intros V1 V2 S1 S2 Hk. eexists. rewrite (sorted_range_slice comp W) in S1, S2 by assumption.
    split; [now apply union_of_setop|]. intros (R1 & R2 & R3).
    rewrite <- (set_loop_ok true true true k m first1 last1 first2 last2 result); try assumption.
    unfold set_union. apply iter_ext. set_body.
  Qed.

  Lemma set_intersection_correct_lemma k m first1 last1 first2 last2 result :
    valid m first1 last1 -> valid m first2 last2 ->
    sorted_range comp m first1 last1 -> sorted_range comp m first2 last2 ->
    (last1 - first1) + (last2 - first2) < k ->
    exists out, intersection_of comp (slice m first1 last1) (slice m first2 last2) out /\
      (room m first1 last1 first2 last2 result out ->
       set_intersection comp k m first1 last1 first2 last2 result = Ok (paste m result out, result + length out)).
  Proof.
    intros V1 V2 S1 S2 Hk. eexists. rewrite (sorted_range_slice comp W) in S1, S2 by assumption.
    split; [now apply intersection_of_setop|]. intros (R1 & R2 & R3).
    rewrite <- (set_loop_ok false false true k m first1 last1 first2 last2 result); try assumption.
    unfold set_intersection. apply iter_ext. set_body.
  Qed.

  Lemma set_difference_correct_lemma k m first1 last1 first2 last2 result :
    valid m first1 last1 -> valid m first2 last2 ->
    sorted_range comp m first1 last1 -> sorted_range comp m first2 last2 ->
    (last1 - first1) + (last2 - first2) < k ->
    exists out, difference_of comp (slice m first1 last1) (slice m first2 last2) out /\
      (room m first1 last1 first2 last2 result out ->
       set_difference comp k m first1 last1 first2 last2 result = Ok (paste m result out, result + length out)).
  Proof.
    intros V1 V2 S1 S2 Hk. eexists. rewrite (sorted_range_slice comp W) in S1, S2 by assumption.
    split; [now apply difference_of_setop|]. intros (R1 & R2 & R3).
    rewrite <- (set_loop_ok true false false k m first1 last1 first2 last2 result); try assumption.
    unfold set_difference. rewrite iter_then. apply iter_ext.
    assert (C : forall (m' : mem) r, copy k m' last1 last1 r = Ok (m', r)).
    { intros m' r. unfold copy. destruct k; [lia|]. cbn [iter]. now rewrite Nat.eqb_refl. }
    intros [[[m' f1] f2] r]; unfold gbody, set_dec.
    destruct (Nat.eqb_spec f1 last1) as [->|N1]; [cbn [negb andb bind]; now rewrite C|].
    destruct (f2 =? last2); cbn [negb andb bind]; [reflexivity|].
    unfold rd. destruct (nth_error m' f1) as [x|]; cbn [bind]; try reflexivity.
    destruct (nth_error m' f2) as [y|]; cbn [bind]; try reflexivity.
    destruct (comp x y); [|destruct (comp y x)]; try reflexivity.
    unfold wr. now destruct (_ <? _).
  Qed.

  Lemma set_symmetric_difference_correct_lemma k m first1 last1 first2 last2 result :
    valid m first1 last1 -> valid m first2 last2 ->
    sorted_range comp m first1 last1 -> sorted_range comp m first2 last2 ->
    (last1 - first1) + (last2 - first2) < k ->
    exists out, symmetric_difference_of comp (slice m first1 last1) (slice m first2 last2) out /\
      (room m first1 last1 first2 last2 result out ->
       set_symmetric_difference comp k m first1 last1 first2 last2 result =
         Ok (paste m result out, result + length out)).
  Proof.
    intros V1 V2 S1 S2 Hk. eexists. rewrite (sorted_range_slice comp W) in S1, S2 by assumption.
    split; [now apply symmetric_difference_of_setop|]. intros (R1 & R2 & R3).
    rewrite <- (set_loop_ok true true false k m first1 last1 first2 last2 result); try assumption.
    unfold set_symmetric_difference. apply iter_ext. set_body.
  Qed.

  (** ** inplace_merge *)
  Lemma mrg_split xs1 xs2 ys1 ys2 :
    ssorted comp (xs1 ++ xs2) -> ssorted comp (ys1 ++ ys2) ->
    (forall x y, In x xs2 -> In y ys1 -> comp y x = true) ->
    (forall x y, In x xs1 -> In y ys2 -> comp y x = false) ->
    mrg comp xs1 ys1 ++ mrg comp xs2 ys2 = mrg comp (xs1 ++ xs2) (ys1 ++ ys2).
  Proof.
    intros Hx Hy H21 H12. destruct (ssorted_app_inv comp _ _ Hx) as (X1 & X2 & X12).
    destruct (ssorted_app_inv comp _ _ Hy) as (Y1 & Y2 & Y12).
    apply (sorted_class_eq comp W).
    - apply ssorted_app; [now apply mrg_sorted..|]. intros x y Hx' Hy'.
      apply mrg_in in Hx', Hy'. destruct Hx' as [Hx'|Hx'], Hy' as [Hy'|Hy']; auto.
      apply (swo_asym comp W). now apply H21.
    - now apply mrg_sorted.
    - intros z. rewrite class_app, !mrg_class by assumption. rewrite !class_app, <- !app_assoc. f_equal.
      assert (N : class comp z ys1 = [] \/ class comp z xs2 = []).
      { destruct (class comp z ys1) as [|y yt] eqn:Ey; [now left|].
        destruct (class comp z xs2) as [|x xt] eqn:Ex; [now right|]. exfalso.
        assert (Iy : In y (class comp z ys1)) by (rewrite Ey; now left).
        assert (Ix : In x (class comp z xs2)) by (rewrite Ex; now left).
        apply in_class in Iy, Ix. destruct Iy as [Iy Ey'], Ix as [Ix Ex'].
        apply equiv_iff in Ey', Ex'. destruct Ey', Ex'. pose proof (H21 x y Ix Iy) as C.
        destruct (swo_split comp W y z x C); congruence. }
      destruct N as [-> | ->]; [reflexivity|]. cbn. now rewrite ?app_nil_r.
  Qed.

  Lemma lower_cut d m first last v : valid m first last -> sorted_range comp m first last ->
    Nat.log2 (last - first) + 2 <= d ->
    exists k, lower_bound d m first last v comp = Ok k /\ first <= k <= last /\
      (forall x, In x (slice m first k) -> comp x v = true) /\
      (forall x, In x (slice m k last) -> comp x v = false).
  Proof.
    intros V HS Hd. destruct (sorted_bounds_lemma comp W m first last v V HS d Hd)
      as (k1 & k2 & H1 & _ & _ & _ & (B & F1 & F2) & _).
    exists k1. split; [exact H1|]. split; [exact B|]. split; intros x Hx; apply in_slice in Hx; destruct Hx as (i & Hi & Ei).
    - specialize (F1 i Hi). destruct (comp x v) eqn:C; [reflexivity|]. exfalso. apply F1.
      intros (x' & Ex' & C'). congruence.
    - specialize (F2 ltac:(lia)). destruct (comp x v) eqn:C; [|reflexivity]. exfalso. apply F2.
      destruct V as [V1 V2]. destruct (nth_error_ex m k1 ltac:(lia)) as [w Hw]. exists w. split; [exact Hw|].
      destruct (comp w v) eqn:Cw; [reflexivity|]. exfalso.
      apply (sorted_pairs comp W m first last (conj V1 V2) HS k1 i ltac:(lia) ltac:(lia) ltac:(lia)).
      exists x, w. repeat split; auto. destruct (swo_split comp W x w v C) as [D|D]; [exact D|congruence].
  Qed.

  Lemma upper_cut d m first last v : valid m first last -> sorted_range comp m first last ->
    Nat.log2 (last - first) + 2 <= d ->
    exists k, upper_bound d m first last v comp = Ok k /\ first <= k <= last /\
      (forall x, In x (slice m first k) -> comp v x = false) /\
      (forall x, In x (slice m k last) -> comp v x = true).
  Proof.
    intros V HS Hd. destruct (sorted_bounds_lemma comp W m first last v V HS d Hd)
      as (k1 & k2 & _ & H1 & _ & _ & _ & (B & F1 & F2) & _).
    exists k2. split; [exact H1|]. split; [exact B|]. split; intros x Hx; apply in_slice in Hx; destruct Hx as (i & Hi & Ei).
    - specialize (F1 i Hi). destruct (comp v x) eqn:C; [|reflexivity]. exfalso. apply F1. now exists x.
    - destruct (F2 ltac:(lia)) as (w & Hw & Cw).
      destruct (comp v x) eqn:C; [reflexivity|]. exfalso.
      apply (sorted_pairs comp W m first last V HS k2 i ltac:(lia) ltac:(lia) ltac:(lia)).
      exists x, w. repeat split; auto. destruct (swo_split comp W v x w Cw) as [D|D]; [congruence|exact D].
  Qed.

  Lemma log2_fuel n n' d : n <= n' -> Nat.log2 n' + 2 <= d -> Nat.log2 n + 2 <= d.
  Proof. intros H. pose proof (Nat.log2_le_mono _ _ H). lia. Qed.

  Lemma inplace_merge_impl_ok d k : forall r m first middle last,
    valid m first last -> first <= middle <= last ->
    sorted_range comp m first middle -> sorted_range comp m middle last ->
    last - first < r -> Nat.log2 (last - first) + 2 <= d -> last - first < k ->
    inplace_merge_impl comp r d k m first middle last (middle - first) (last - middle) =
    Ok (paste m first (mrg comp (slice m first middle) (slice m middle last))).
  Proof.
    induction r as [|r IH]; intros m first middle last [V1 V2] Hm S1 S2 Hr Hd Hk; [lia|].
    cbn [inplace_merge_impl].
    destruct (Nat.eqb_spec (middle - first) 0) as [E1|N1].
    { cbn [orb]. replace middle with first by lia. rewrite (slice_nil m first first) by lia. rewrite mrg_nil_l.
      now rewrite paste_slice by (split; lia). }
    destruct (Nat.eqb_spec (last - middle) 0) as [E2|N2].
    { cbn [orb]. replace middle with last by lia. rewrite (slice_nil m last last) by lia. rewrite mrg_nil_r.
      now rewrite paste_slice by (split; lia). }
    cbn [orb].
    destruct (Nat.eqb_spec (middle - first + (last - middle)) 2) as [E|N].
    { assert (middle = S first) as -> by lia. assert (last = S (S first)) as -> by lia.
      destruct (nth_error_ex m first ltac:(lia)) as [x Hx]. destruct (nth_error_ex m (S first) ltac:(lia)) as [y Hy].
      unfold rd. rewrite Hx, Hy. cbn [bind].
      rewrite (slice_cons m first (S first) x), (slice_cons m (S first) (S (S first)) y) by (auto; lia).
      rewrite !slice_nil by lia. rewrite mrg_cons. destruct (comp y x) eqn:C.
      - apply wp_det. apply wp_swap; [lia|lia|]. intros m' L H1 H2 H3.
        apply paste_ext; cbn [length mrg]; [lia| |].
        + intros j Hj. destruct (Nat.eq_dec j first) as [->|]; [rewrite H1, Nat.sub_diag; exact Hy|].
          replace j with (S first) by lia. rewrite H2. replace (S first - first) with 1 by lia. exact Hx.
        + intros j Hj. apply H3; lia.
      - f_equal. apply paste_ext; cbn [length mrg]; [lia| |auto].
        intros j Hj. destruct (Nat.eq_dec j first) as [->|]; [rewrite Nat.sub_diag; exact Hx|].
        replace j with (S first) by lia. replace (S first - first) with 1 by lia. exact Hy. }
    (* the cuts *)
    assert (Cut : exists fc sc,
      (if last - middle <? middle - first then
         let len11 := (middle - first) / 2 in
         let first_cut := first + len11 in
         v <- rd m first_cut ;;
         second_cut <- lower_bound d m middle last v comp ;;
         Ok (first_cut, second_cut, len11, second_cut - middle)
       else
         let len22 := (last - middle) / 2 in
         let second_cut := middle + len22 in
         v <- rd m second_cut ;;
         first_cut <- upper_bound d m first middle v comp ;;
         Ok (first_cut, second_cut, first_cut - first, len22)) = Ok (fc, sc, fc - first, sc - middle) /\
      first <= fc <= middle /\ middle <= sc <= last /\
      (fc - first) + (sc - middle) < last - first /\ (middle - fc) + (last - sc) < last - first /\
      (forall x y, In x (slice m fc middle) -> In y (slice m middle sc) -> comp y x = true) /\
      (forall x y, In x (slice m first fc) -> In y (slice m sc last) -> comp y x = false)).
    { assert (VA : valid m first middle) by (split; lia). assert (VB : valid m middle last) by (split; lia).
      destruct (Nat.ltb_spec (last - middle) (middle - first)) as [C|C].
      - pose proof (Nat.div_mod (middle - first) 2 ltac:(lia)) as DM.
        pose proof (Nat.mod_upper_bound (middle - first) 2 ltac:(lia)) as MB.
        set (h := (middle - first) / 2) in *. cbv zeta.
        destruct (nth_error_ex m (first + h) ltac:(lia)) as [v Hv].
        destruct (lower_cut d m middle last v VB S2) as (kk & EK & BK & K1 & K2).
        { eapply log2_fuel; [|exact Hd]; lia. }
        exists (first + h), kk. unfold rd. rewrite Hv. cbn [bind]. rewrite EK. cbn [bind].
        split; [repeat f_equal; lia|]. split; [lia|]. split; [lia|]. split; [lia|]. split; [lia|].
        split; intros x y Hx Hy.
        + specialize (K1 y Hy). apply in_slice in Hx. destruct Hx as (i & Hi & Ei).
          destruct (comp x v) eqn:Cx.
          * exfalso. apply (sorted_pairs comp W m first middle VA S1 (first + h) i ltac:(lia) ltac:(lia) ltac:(lia)).
            now exists x, v.
          * destruct (swo_split comp W y x v K1) as [D|D]; [exact D|congruence].
        + specialize (K2 y Hy). apply in_slice in Hx. destruct Hx as (i & Hi & Ei).
          apply (swo_neg comp W y v x); [exact K2|].
          destruct (comp v x) eqn:Cx; [|reflexivity]. exfalso.
          apply (sorted_pairs comp W m first middle VA S1 i (first + h) ltac:(lia) ltac:(lia) ltac:(lia)).
          now exists v, x.
      - pose proof (Nat.div_mod (last - middle) 2 ltac:(lia)) as DM.
        pose proof (Nat.mod_upper_bound (last - middle) 2 ltac:(lia)) as MB.
        set (h := (last - middle) / 2) in *. cbv zeta.
        destruct (nth_error_ex m (middle + h) ltac:(lia)) as [v Hv].
        destruct (upper_cut d m first middle v VA S1) as (kk & EK & BK & K1 & K2).
        { eapply log2_fuel; [|exact Hd]; lia. }
        exists kk, (middle + h). unfold rd. rewrite Hv. cbn [bind]. rewrite EK. cbn [bind].
        split; [repeat f_equal; lia|]. split; [lia|]. split; [lia|]. split; [lia|]. split; [lia|].
        split; intros x y Hx Hy.
        + specialize (K2 x Hx). apply in_slice in Hy. destruct Hy as (i & Hi & Ei).
          destruct (comp v y) eqn:Cy.
          * exfalso. apply (sorted_pairs comp W m middle last VB S2 i (middle + h) ltac:(lia) ltac:(lia) ltac:(lia)).
            now exists v, y.
          * destruct (swo_split comp W v y x K2) as [D|D]; [congruence|exact D].
        + specialize (K1 x Hx). apply in_slice in Hy. destruct Hy as (i & Hi & Ei).
          apply (swo_neg comp W y v x); [|exact K1].
          destruct (comp y v) eqn:Cx; [|reflexivity]. exfalso.
          apply (sorted_pairs comp W m middle last VB S2 (middle + h) i ltac:(lia) ltac:(lia) ltac:(lia)).
          now exists y, v. }
    destruct Cut as (fc & sc & EC & B1 & B2 & T1 & T2 & O1 & O2). cbv zeta in EC |- *. rewrite EC. cbn [bind]. clear EC.
    rewrite rotate_correct_lemma by (try split; lia). cbn [bind].
    set (nm := fc + (sc - middle)).
    set (m1 := paste m fc (slice m middle sc ++ slice m fc middle)).
    assert (LX : length (slice m middle sc) = sc - middle) by (apply slice_length; lia).
    assert (LY : length (slice m fc middle) = middle - fc) by (apply slice_length; lia).
    assert (L1 : length m1 = length m) by (unfold m1; rewrite paste_length; rewrite ?app_length; lia).
    assert (E1 : m1 = paste (paste m fc (slice m middle sc)) nm (slice m fc middle)).
    { unfold m1, nm. rewrite <- LX. now rewrite paste_app by lia. }
    assert (SA : slice m1 first fc = slice m first fc).
    { unfold m1. apply slice_paste_out; rewrite ?app_length; lia. }
    assert (SB : slice m1 fc nm = slice m middle sc).
    { rewrite E1. rewrite slice_paste_out; [|rewrite paste_length by lia; unfold nm; lia|lia|rewrite paste_length by lia; unfold nm; lia].
      unfold nm. rewrite <- LX. apply slice_paste. lia. }
    assert (SC : slice m1 nm sc = slice m fc middle).
    { transitivity (slice m1 nm (nm + length (slice m fc middle))); [f_equal; unfold nm; lia|].
      rewrite E1. apply slice_paste. rewrite paste_length by lia. unfold nm; lia. }
    assert (SD : slice m1 sc last = slice m sc last).
    { unfold m1. apply slice_paste_out; rewrite ?app_length; lia. }
    pose proof (proj1 (sorted_range_slice comp W m first middle ltac:(split; lia)) S1) as G1.
    pose proof (proj1 (sorted_range_slice comp W m middle last ltac:(split; lia)) S2) as G2.
    rewrite (slice_app m first fc middle) in G1 by lia. rewrite (slice_app m middle sc last) in G2 by lia.
    destruct (ssorted_app_inv comp _ _ G1) as (GA & GC & _). destruct (ssorted_app_inv comp _ _ G2) as (GB & GD & _).
    replace (sc - middle) with (nm - fc) by (unfold nm; lia).
    rewrite IH; [|split; unfold nm; lia|unfold nm; lia
      |apply (sorted_range_slice comp W); [split; lia|]; now rewrite SA
      |apply (sorted_range_slice comp W); [split; unfold nm; lia|]; now rewrite SB
      |unfold nm; lia|eapply log2_fuel; [|exact Hd]; unfold nm; lia|unfold nm; lia].
    cbn [bind]. rewrite SA, SB.
    set (o1 := mrg comp (slice m first fc) (slice m middle sc)).
    assert (LO1 : length o1 = nm - first).
    { unfold o1. rewrite mrg_length, !slice_length by lia. unfold nm. lia. }
    replace (middle - first - (fc - first)) with (sc - nm) by (unfold nm; lia).
    replace (last - middle - (nm - fc)) with (last - sc) by (unfold nm; lia).
    assert (L2 : length (paste m1 first o1) = length m) by (rewrite paste_length; unfold nm in *; lia).
    assert (SC2 : slice (paste m1 first o1) nm sc = slice m fc middle).
    { rewrite slice_paste_out; [exact SC|unfold nm in *; lia..]. }
    assert (SD2 : slice (paste m1 first o1) sc last = slice m sc last).
    { rewrite slice_paste_out; [exact SD|unfold nm in *; lia..]. }
    rewrite IH; [|split; unfold nm in *; lia|unfold nm; lia
      |apply (sorted_range_slice comp W); [split; unfold nm in *; lia|]; now rewrite SC2
      |apply (sorted_range_slice comp W); [split; unfold nm in *; lia|]; now rewrite SD2
      |unfold nm; lia|eapply log2_fuel; [|exact Hd]; unfold nm; lia|unfold nm; lia].
    rewrite SC2, SD2. f_equal.
    rewrite (slice_app m first fc middle), (slice_app m middle sc last) by lia.
    rewrite <- mrg_split by assumption. fold o1.
    set (o2 := mrg comp (slice m fc middle) (slice m sc last)).
    assert (LO2 : length o2 = last - nm).
    { unfold o2. rewrite mrg_length, !slice_length by lia. unfold nm. lia. }
    replace nm with (first + length o1) by (unfold nm in *; lia).
    rewrite paste_app by (unfold nm in *; lia).
    apply paste_ext; rewrite ?app_length; [unfold nm in *; lia| |].
    - intros j Hj. apply nth_paste_in; rewrite ?app_length; unfold nm in *; lia.
    - intros j Hj. rewrite nth_paste_out; rewrite ?app_length; [|unfold nm in *; lia..].
      unfold m1. apply nth_paste_out; rewrite ?app_length; unfold nm in *; lia.
  Qed.

  Lemma inplace_merge_correct_lemma r d k m first middle last :
    valid m first last -> first <= middle <= last ->
    sorted_range comp m first middle -> sorted_range comp m middle last ->
    last - first < r -> Nat.log2 (last - first) + 2 <= d -> last - first < k ->
    exists out, merge_of comp (slice m first middle) (slice m middle last) out /\
      inplace_merge comp r d k m first middle last = Ok (paste m first out).
  Proof.
    intros V Hm S1 S2 Hr Hd Hk. pose proof V as [V1 V2]. exists (mrg comp (slice m first middle) (slice m middle last)).
    split.
    { apply (merge_of_mrg comp W); apply (sorted_range_slice comp W); auto; split; lia. }
    unfold inplace_merge. destruct (Nat.eqb_spec first middle) as [<-|N1].
    { cbn [orb]. rewrite (slice_nil m first first), mrg_nil_l, paste_slice by (auto; lia). reflexivity. }
    destruct (Nat.eqb_spec middle last) as [->|N2].
    { cbn [orb]. rewrite (slice_nil m last last), mrg_nil_r, paste_slice by (auto; lia). reflexivity. }
    cbn [orb]. now apply inplace_merge_impl_ok.
  Qed.
End Ops.
