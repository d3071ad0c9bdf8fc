(** Proofs about filter_iterator, adjacent_filter_iterator, while_iterator and about
    next, prev, advance and distance. *)
From Coq Require Import List Arith Bool ZArith Lia ZifyBool ZifyNat.
From Verif Require Import Base BaseProof SearchModel SearchSpec SearchProof MutSpec ItModel ItSpec ItProof ItProof2 OrderSpec.
Import ListNotations.
Open Scope nat_scope.

(** ** filter_iterator *)
Section FilterP.
  Context {A : Type}.
  Variables (c : bool) (d : nat) (l : list A) (last : nat) (p : A -> bool).

  Definition satb (i : nat) : bool := match nth_error l i with Some x => p x | None => false end.
  Definition spots (a n : nat) : list nat := filter satb (seq a n).

  Lemma satb_iff i : satb i = true <-> sat p l i.
  Proof using.
    unfold satb, sat. destruct (nth_error l i) as [x|]; split.
    - intros H. exists x. auto.
    - intros (y & E & H). congruence.
    - discriminate.
    - intros (y & E & H). discriminate.
  Qed.

  Lemma spots_head n : forall a, is_first (sat p l) a (a + n) (hd (a + n) (spots a n)).
  Proof using.
    induction n as [|n IH]; intros a; unfold spots; cbn [seq filter].
    - cbn [hd]. split; [lia |]. split; intros; lia.
    - destruct (satb a) eqn:E.
      + cbn [hd]. split; [lia |]. split; [intros; lia |]. intros _. now apply satb_iff.
      + specialize (IH (S a)). replace (S a + n) with (a + S n) in IH by lia. unfold spots in IH.
        destruct IH as (B & F & G). split; [lia |]. split; [| exact G].
        intros j Hj. destruct (Nat.eq_dec j a) as [-> | H]; [| apply F; lia].
        rewrite <- satb_iff. congruence.
  Qed.

  Lemma is_first_unique (P : nat -> Prop) a b r r' : is_first P a b r -> is_first P a b r' -> r = r'.
  Proof using.
    intros (B & F & G) (B' & F' & G'). destruct (Nat.lt_trichotomy r r') as [H | [H | H]]; [| exact H |].
    - exfalso. apply (F' r); [lia | apply G; lia].
    - exfalso. apply (F r'); [lia | apply G'; lia].
  Qed.

  Lemma spots_tail n : forall a i r, nth_error (spots a n) i = Some r ->
    a <= r < a + n /\ spots (S r) (a + n - S r) = skipn (S i) (spots a n).
  Proof using.
    induction n as [|n IH]; intros a i r; unfold spots; cbn [seq filter].
    - destruct i; discriminate.
    - destruct (satb a) eqn:E.
      + destruct i as [|i]; cbn [nth_error].
        * intros [= <-]. split; [lia |]. cbn [skipn]. replace (a + S n - S a) with n by lia. reflexivity.
        * intros H. apply IH in H. destruct H as (B & H). split; [lia |].
          replace (a + S n - S r) with (S a + n - S r) by lia. exact H.
      + intros H. apply IH in H. destruct H as (B & H). split; [lia |].
        replace (a + S n - S r) with (S a + n - S r) by lia. exact H.
  Qed.

  Lemma skipn_cons_nth {B} (ys : list B) a x : nth_error ys a = Some x -> skipn a ys = x :: skipn (S a) ys.
  Proof using.
    revert ys. induction a as [|a IH]; intros [|y ys] H; cbn in *; try discriminate.
    - now injection H as ->.
    - now apply IH.
  Qed.

  Lemma spots_values n : forall a, a + n <= length l ->
    Forall2 (fun r x => nth_error l r = Some x) (spots a n) (filter p (firstn n (skipn a l))).
  Proof using.
    induction n as [|n IH]; intros a L; unfold spots; cbn [seq filter firstn]; [constructor |].
    destruct (nth_error l a) as [x|] eqn:E; [| apply nth_error_None in E; lia].
    rewrite (skipn_cons_nth l a x E). cbn [filter]. unfold satb at 1. rewrite E.
    destruct (p x); [constructor; [exact E |] |]; apply IH; lia.
  Qed.

  Lemma Forall2_nth {B C} (R : B -> C -> Prop) xs ys i y : Forall2 R xs ys -> nth_error ys i = Some y ->
    exists x, nth_error xs i = Some x /\ R x y.
  Proof using.
    clear. intros H. revert i. induction H as [|a b xs ys Hab H IH]; intros [|i] E; cbn in *; try discriminate.
    - injection E as ->. eauto.
    - auto.
  Qed.

  Lemma Forall2_len {B C} (R : B -> C -> Prop) xs ys : Forall2 R xs ys -> length xs = length ys.
  Proof using. clear. induction 1; cbn; congruence. Qed.

  Lemma filter_le {B} (f : B -> bool) ys : length (filter f ys) <= length ys.
  Proof using. clear. induction ys as [|y ys IH]; cbn [filter length]; [lia |]. destruct (f y); cbn [length]; lia. Qed.

  Variable first : nat.
  Hypothesis Hv : valid l first last.
  Hypothesis Hd : depth_bound (last - first) <= d.
  Notation ps := (spots first (last - first)).
  Notation xs := (filter p (slice l first last)).
  Definition flf (i : nat) : nat := nth i ps last.

  Lemma fl_length : length xs = length ps.
  Proof using Hv Hd.
    destruct Hv as (V1 & V2). symmetry. apply (Forall2_len _ _ _ (spots_values (last - first) first ltac:(lia))).
  Qed.

  Lemma depth_mono a b : a <= b -> depth_bound a <= depth_bound b.
  Proof using. clear. intros H. unfold depth_bound. pose proof (Nat.log2_le_mono a b H). lia. Qed.

  Lemma fl_find q : first <= q <= last -> find_if c d l q last p = Ok (hd last (spots q (last - q))).
  Proof using Hv Hd.
    intros Hq. destruct Hv as (V1 & V2).
    destruct (find_if_correct_lemma c d l q last p) as (r & -> & F).
    - split; lia.
    - pose proof (depth_mono (last - q) (last - first) ltac:(lia)). lia.
    - f_equal. apply (is_first_unique _ _ _ _ _ F). pose proof (spots_head (last - q) q) as G.
      replace (q + (last - q)) with last in G by lia. exact G.
  Qed.

  Lemma flf_0 : fl_new c d l last p first = Ok (flf 0).
  Proof using Hv Hd.
    unfold fl_new, flf. destruct Hv. rewrite fl_find by lia. now destruct ps.
  Qed.

  Lemma hd_skipn {B} (ys : list B) i y : hd y (skipn i ys) = nth i ys y.
  Proof using. clear. revert ys. induction i as [|i IH]; intros [|z ys]; cbn; auto. Qed.

  Lemma flf_next i : i < length xs -> fl_next c d l last p (flf i) = Ok (flf (S i)).
  Proof using Hv Hd.
    rewrite fl_length. intros Hi. unfold fl_next, flf, nxt.
    destruct (nth_error ps i) as [r|] eqn:E; [| apply nth_error_None in E; lia].
    rewrite (nth_error_nth _ _ last E). apply spots_tail in E. destruct E as (B & E). destruct Hv as (V1 & V2).
    replace (r <? length l) with true by lia. cbn [bind]. rewrite fl_find by lia.
    replace (first + (last - first) - S r) with (last - S r) in E by lia. rewrite E, hd_skipn. reflexivity.
  Qed.

  Lemma flf_deref i x : nth_error xs i = Some x -> rd l (flf i) = Ok x.
  Proof using Hv Hd.
    destruct Hv as (V1 & V2). intros H.
    destruct (Forall2_nth _ _ _ _ _ (spots_values (last - first) first ltac:(lia)) H) as (r & Hr & Hx).
    unfold flf. rewrite (nth_error_nth _ _ last Hr). unfold rd. now rewrite Hx.
  Qed.

  Lemma flf_lt i : i < length ps -> first <= flf i < last.
  Proof using Hv Hd.
    destruct Hv as (V1 & V2). intros Hi. unfold flf. pose proof (nth_In ps last Hi) as H.
    unfold spots in *. apply filter_In in H. destruct H as (H & _). apply in_seq in H. lia.
  Qed.

  Lemma flf_eq i j : i <= length xs -> j <= length xs -> (flf i =? flf j) = (i =? j).
  Proof using Hv Hd.
    rewrite fl_length. intros Hi Hj. destruct (i =? j) eqn:E; [assert (i = j) as -> by lia; lia |].
    apply Nat.eqb_neq. intros H.
    destruct (Nat.eq_dec i (length ps)) as [Ei|Ei], (Nat.eq_dec j (length ps)) as [Ej|Ej]; [lia | | |].
    - pose proof (flf_lt j ltac:(lia)). unfold flf in H at 1. rewrite nth_overflow in H by lia. lia.
    - pose proof (flf_lt i ltac:(lia)). unfold flf in H at 2. rewrite nth_overflow in H by lia. lia.
    - assert (N : NoDup ps) by (apply NoDup_filter, seq_NoDup).
      unfold flf in H. apply (proj1 (NoDup_nth ps last) N i j) in H; lia.
  Qed.

  Lemma find_prev_ok r : sat p l r -> forall e q, r <= q < length l -> (forall j, r < j <= q -> ~ sat p l j) ->
    q - r < e -> find_prev l p e q = Ok r.
  Proof using.
    clear. intros (x & X & P) e. induction e as [|e IH]; intros q Hq Hn He; [lia |]. cbn [find_prev]. unfold rd.
    destruct (nth_error l q) as [y|] eqn:Y; [| apply nth_error_None in Y; lia]. cbn [bind].
    destruct (p y) eqn:Py.
    - destruct (Nat.eq_dec q r) as [-> |N]; [reflexivity |]. exfalso. apply (Hn q); [lia |]. exists y. auto.
    - destruct (Nat.eq_dec q r) as [-> |N]; [congruence |].
      destruct q as [|q]; [lia |]. cbn [prv bind]. apply IH; [lia | | lia]. intros j Hj. apply Hn. lia.
  Qed.

  Lemma flf_prev i : last - first <= d -> i < length xs -> fl_prev d l p (flf (S i)) = Ok (flf i).
  Proof using Hv Hd.
    intros D. rewrite fl_length. intros Hi. destruct Hv as (V1 & V2).
    destruct (nth_error ps i) as [r|] eqn:E; [| apply nth_error_None in E; lia].
    assert (Fi : flf i = r) by (unfold flf; now rewrite (nth_error_nth _ _ last E)).
    pose proof (flf_lt i Hi) as Bi. rewrite Fi in *.
    assert (Sr : sat p l r).
    { apply satb_iff. apply nth_error_In in E. unfold spots in E. apply filter_In in E. tauto. }
    apply spots_tail in E. destruct E as (_ & E). replace (first + (last - first) - S r) with (last - S r) in E by lia.
    pose proof (spots_head (last - S r) (S r)) as H. replace (S r + (last - S r)) with last in H by lia.
    rewrite E, hd_skipn in H. fold (flf (S i)) in H. destruct H as (B & F & _).
    unfold fl_prev. destruct (flf (S i)) as [|t]; [lia |]. cbn [prv bind].
    apply find_prev_ok; [exact Sr | lia | | lia]. intros j Hj. apply F. lia.
  Qed.

  Lemma flf_last : fl_new c d l last p last = Ok last /\ flf (length xs) = last.
  Proof using Hv Hd.
    destruct Hv as (V1 & V2). split.
    - unfold fl_new. rewrite fl_find by lia. rewrite Nat.sub_diag. reflexivity.
    - rewrite fl_length. unfold flf. apply nth_overflow. lia.
  Qed.

  Lemma filter_traverses_lemma : exists b, fl_new c d l last p first = Ok b /\ fl_new c d l last p last = Ok last /\
    traverses (ok (fl_next c d l last p)) (ok (rd l)) Nat.eqb b last xs /\
    (last - first <= d -> retreats (ok (fl_next c d l last p)) (ok (fl_prev d l p)) b xs).
  Proof using Hv Hd.
    exists (flf 0). split; [apply flf_0 |]. destruct flf_last as (E1 & E2). split; [exact E1 |]. split.
    - pose proof (traverses_f (fl_next c d l last p) flf xs flf_next (rd l) Nat.eqb) as T. rewrite E2 in T. apply T; [exact flf_deref | exact flf_eq].
    - intros D. apply retreats_f; [exact flf_next |]. intros i Hi. now apply flf_prev.
  Qed.

  Lemma filtered_lemma k : last - first < k -> filtered c d l last p k first = Ok xs /\
    (last - first <= d -> filtered_back c d l last p k first = Ok (rev xs)).
  Proof using Hv Hd.
    intros Hk. destruct filter_traverses_lemma as (b & E1 & E2 & T & R). unfold filtered, filtered_back.
    rewrite E1, E2. cbn [bind].
    assert (L : length xs < k).
    { rewrite fl_length. unfold spots. pose proof (filter_le satb (seq first (last - first))) as F.
      rewrite seq_length in F. lia. }
    split; [exact (walk_lemma _ _ _ _ _ _ _ T L) |].
    intros D. exact (walk_back_lemma _ _ _ _ _ _ _ _ T (R D) L).
  Qed.
End FilterP.

(** ** adjacent_filter_iterator *)
Lemma slice_cons {A} (l : list A) last q x :
  q < last -> nth_error l q = Some x -> slice l q last = x :: slice l (S q) last.
Proof.
  intros H X. unfold slice. rewrite (skipn_cons_nth l q x X).
  replace (last - q) with (S (last - S q)) by lia. reflexivity.
Qed.

Lemma slice_nil {A} (l : list A) last : slice l last last = [].
Proof. unfold slice. rewrite Nat.sub_diag. reflexivity. Qed.

Section AdjacentP.
  Context {A : Type}.
  Variables (c : bool) (d : nat) (l : list A) (last : nat) (p : A -> A -> bool).
  Hypothesis Hlast : last <= length l.
  Hypothesis Hd : depth_bound last <= d.
  Notation eq := (fun x y => negb (p x y)).

  Lemma af_find q : q <= last ->
    exists r, adjacent_find c d l q last p = Ok r /\
      is_first (fun i => S i < last /\ rel p l i l (S i)) q last r.
  Proof using Hlast Hd.
    intros Hq. apply adjacent_find_scan; [split; lia |].
    pose proof (depth_mono (last - q) last ltac:(lia)). lia.
  Qed.

  (** the searches from [q] *)
  Lemma af_at_end q : q <= last -> last <= S q -> adjacent_find c d l q last p = Ok last.
  Proof using Hlast Hd.
    intros H1 H2. destruct (af_find q H1) as (r & -> & (B & F & G)).
    destruct (Nat.eq_dec r last) as [-> |N]; [reflexivity |]. destruct (G ltac:(lia)) as (U & _). lia.
  Qed.

  Lemma af_step q x y : S q < last -> nth_error l q = Some x -> nth_error l (S q) = Some y ->
    adjacent_find c d l q last p = if p x y then Ok q else adjacent_find c d l (S q) last p.
  Proof using Hlast Hd.
    intros H X Y. destruct (af_find q ltac:(lia)) as (r & -> & F). destruct (p x y) eqn:P.
    - f_equal. destruct F as (B & F & G). destruct (Nat.eq_dec r q) as [-> |N]; [reflexivity |].
      exfalso. apply (F q); [lia |]. split; [exact H |]. exists x, y. auto.
    - destruct (af_find (S q) ltac:(lia)) as (r' & -> & F'). f_equal. apply (is_first_unique _ _ _ _ _ F).
      destruct F' as (B & F' & G). split; [lia |]. split; [| exact G].
      intros j Hj. destruct (Nat.eq_dec j q) as [-> |N]; [| apply F'; lia].
      intros (_ & x' & y' & X' & Y' & P'). congruence.
  Qed.

  (** from an element on, the loop visits the later changes *)
  Lemma af_tail n : forall q x k, n = last - q -> q < last -> nth_error l q = Some x -> n <= k ->
    (t <- af_next c d l last p q ;; walk k (fun s => s =? last) (af_next c d l last p) (rd l) t) =
    Ok (changes eq x (slice l (S q) last)).
  Proof using Hlast Hd.
    induction n as [|n IH]; intros q x k Hn Hq X Hk; [lia |].
    destruct (Nat.eq_dec (S q) last) as [E|E].
    - unfold af_next at 1. rewrite af_at_end by lia. cbn [bind]. rewrite Nat.eqb_refl. cbn [bind].
      destruct k as [|k]; [lia |]. cbn [walk]. rewrite Nat.eqb_refl, E, slice_nil. reflexivity.
    - destruct (nth_error l (S q)) as [y|] eqn:Y; [| apply nth_error_None in Y; lia].
      rewrite (slice_cons l last (S q) y) by (lia || exact Y). cbn [changes].
      unfold af_next at 1. rewrite (af_step q x y) by (lia || assumption). destruct (p x y) eqn:P; cbn [negb].
      + cbn [bind]. replace (q =? last) with false by lia. unfold nxt.
        replace (q <? length l) with true by lia. cbn [bind].
        destruct k as [|k]; [lia |]. cbn [walk]. replace (S q =? last) with false by lia.
        unfold rd at 1. rewrite Y. cbn [bind].
        pose proof (IH (S q) y k ltac:(lia) ltac:(lia) Y ltac:(lia)) as I.
        destruct (af_next c d l last p (S q)) as [t| |]; cbn [bind] in *; try discriminate.
        rewrite I. reflexivity.
      + apply (IH (S q) y k); (lia || assumption).
  Qed.

  Lemma af_whole : (forall x y, p x y = false -> x = y) ->
    forall n q k, n = last - q -> q <= last -> n < k ->
    (b <- af_new c d l last p q ;; walk k (fun s => s =? last) (af_next c d l last p) (rd l) b) =
    Ok (match slice l q last with
        | [] => []
        | x :: t => match changes eq x t with [] => [] | ys => x :: ys end
        end).
  Proof using Hlast Hd.
    intros Heq. induction n as [|n IH]; intros q k Hn Hq Hk.
    - assert (q = last) as -> by lia. unfold af_new. rewrite af_at_end by lia. cbn [bind].
      destruct k as [|k]; [lia |]. cbn [walk]. rewrite Nat.eqb_refl, slice_nil. reflexivity.
    - destruct (nth_error l q) as [x|] eqn:X; [| apply nth_error_None in X; lia].
      rewrite (slice_cons l last q x) by (lia || exact X). destruct (Nat.eq_dec (S q) last) as [E|E].
      + unfold af_new. rewrite af_at_end by lia. cbn [bind].
        destruct k as [|k]; [lia |]. cbn [walk]. rewrite Nat.eqb_refl, E, slice_nil. reflexivity.
      + destruct (nth_error l (S q)) as [y|] eqn:Y; [| apply nth_error_None in Y; lia].
        unfold af_new. rewrite (af_step q x y) by (lia || assumption). destruct (p x y) eqn:P.
        * cbn [bind]. destruct k as [|k]; [lia |]. cbn [walk]. replace (q =? last) with false by lia.
          unfold rd at 1. rewrite X. cbn [bind].
          pose proof (af_tail (last - q) q x k eq_refl ltac:(lia) X ltac:(lia)) as I.
          destruct (af_next c d l last p q) as [t| |]; cbn [bind] in *; try discriminate. rewrite I.
          rewrite (slice_cons l last (S q) y) by (lia || exact Y). cbn [changes]. rewrite P. reflexivity.
        * apply Heq in P as P'. subst y. fold (af_new c d l last p (S q)).
          rewrite (IH (S q) k) by lia. rewrite (slice_cons l last (S q) x) by (lia || exact Y). cbn [changes].
          rewrite P. reflexivity.
  Qed.

  Lemma af_end : af_new c d l last p last = Ok last.
  Proof using Hlast Hd. unfold af_new. apply af_at_end; lia. Qed.
End AdjacentP.

Lemma uniqued_lemma {A} c d (l : list A) first last (eq : A -> A -> bool) k :
  valid l first last -> depth_bound last <= d -> last - first < k -> (forall x y, eq x y = true -> x = y) ->
  uniqued c d l last eq k first =
    Ok (match slice l first last with
        | [] => []
        | x :: t => match changes eq x t with [] => [] | ys => x :: ys end
        end).
Proof.
  intros (V1 & V2) Hd Hk Heq. unfold uniqued, adjacent_filtered.
  rewrite (af_end c d l last _ V2 Hd).
  pose proof (af_whole c d l last (fun x y => negb (eq x y)) V2 Hd) as W.
  specialize (W (fun x y H => Heq x y (proj1 (negb_false_iff _) H)) (last - first) first k eq_refl V1 Hk).
  assert (C : forall x t, changes (fun x y => negb (negb (eq x y))) x t = changes eq x t).
  { intros x t. revert x. induction t as [|y t IH]; intros x; cbn [changes]; [reflexivity |].
    rewrite negb_involutive, !IH. reflexivity. }
  destruct (af_new c d l last (fun x y => negb (eq x y)) first) as [b| |]; cbn [bind] in *; try discriminate.
  rewrite W. destruct (slice l first last) as [|x t]; [reflexivity |]. rewrite C. reflexivity.
Qed.

Lemma uniqued_heads_lemma {A} c d (l : list A) first last (eq : A -> A -> bool) k :
  valid l first last -> depth_bound last <= d -> last - first < k -> (forall x y, eq x y = true -> x = y) ->
  (exists i, first <= i /\ S i < last /\ ~ rel eq l i l (S i)) ->
  uniqued c d l last eq k first = Ok (run_heads eq (slice l first last)).
Proof.
  intros V Hd Hk Heq (i & Hi1 & Hi2 & N). rewrite uniqued_lemma by assumption. destruct V as (V1 & V2).
  assert (G : forall m q x, m = i - q -> first <= q -> q <= i -> nth_error l q = Some x -> changes eq x (slice l (S q) last) <> []).
  { induction m as [|m IH]; intros q x Hm Hq1 Hq2 X.
    - assert (q = i) as -> by lia.
      destruct (nth_error l (S i)) as [y|] eqn:Y; [| apply nth_error_None in Y; lia].
      rewrite (slice_cons l last (S i) y) by (lia || exact Y). cbn [changes].
      destruct (eq x y) eqn:E; [| discriminate]. exfalso. apply N. exists x, y. auto.
    - destruct (nth_error l (S q)) as [y|] eqn:Y; [| apply nth_error_None in Y; lia].
      rewrite (slice_cons l last (S q) y) by (lia || exact Y). cbn [changes].
      destruct (eq x y); [| discriminate]. apply (IH (S q)); (lia || exact Y). }
  destruct (nth_error l first) as [x|] eqn:X; [| apply nth_error_None in X; lia].
  rewrite (slice_cons l last first x) by (lia || exact X). cbn [run_heads].
  specialize (G (i - first) first x eq_refl ltac:(lia) ltac:(lia) X).
  destruct (changes eq x (slice l (S first) last)); [congruence | reflexivity].
Qed.

Lemma uniqued_constant_lemma {A} c d (l : list A) first last (eq : A -> A -> bool) k :
  valid l first last -> depth_bound last <= d -> last - first < k -> (forall x y, eq x y = true -> x = y) ->
  (forall i, first <= i -> S i < last -> rel eq l i l (S i)) ->
  uniqued c d l last eq k first = Ok [].
Proof.
  intros V Hd Hk Heq Hall. rewrite uniqued_lemma by assumption. destruct V as (V1 & V2).
  assert (G : forall m q x, m = last - q -> first <= q < last -> nth_error l q = Some x -> changes eq x (slice l (S q) last) = []).
  { induction m as [|m IH]; intros q x Hm Hq X; [lia |].
    destruct (Nat.eq_dec (S q) last) as [E|E]; [rewrite E, slice_nil; reflexivity |].
    destruct (Hall q ltac:(lia) ltac:(lia)) as (x' & y & X' & Y & P).
    rewrite (slice_cons l last (S q) y) by (lia || exact Y). cbn [changes].
    assert (x' = x) as -> by congruence. rewrite P. apply (IH (S q)); (lia || assumption). }
  destruct (Nat.eq_dec first last) as [-> |N]; [now rewrite slice_nil |].
  destruct (nth_error l first) as [x|] eqn:X; [| apply nth_error_None in X; lia].
  rewrite (slice_cons l last first x) by (lia || exact X).
  rewrite (G (last - first) first x eq_refl ltac:(lia) X). reflexivity.
Qed.

(** ** while_iterator *)
Section WhileP.
  Context {A : Type}.
  Variables (l : list A) (last : nat) (p : A -> bool).
  Hypothesis Hlast : last <= length l.

  Lemma wh_end : wh_new l last p last = Ok last.
  Proof using. unfold wh_new, wh_find. rewrite Nat.eqb_refl. reflexivity. Qed.

  Lemma while_walk (next : nat -> res nat) n : forall q k, n = last - q -> q <= last -> n < k ->
    (forall s, q <= s -> s < last -> (forall j, q <= j <= s -> sat p l j) -> next s = wh_next l last p s) ->
    (b <- wh_find l last p q ;; walk k (fun s => s =? last) next (rd l) b) =
    Ok (prefix_while p (slice l q last)).
  Proof using Hlast.
    induction n as [|n IH]; intros q k Hn Hq Hk Hnext.
    - assert (q = last) as -> by lia. unfold wh_find. rewrite Nat.eqb_refl. cbn [bind].
      destruct k as [|k]; [lia |]. cbn [walk]. rewrite Nat.eqb_refl, slice_nil. reflexivity.
    - unfold wh_find at 1. replace (q =? last) with false by lia. unfold rd at 1.
      destruct (nth_error l q) as [x|] eqn:X; [| apply nth_error_None in X; lia]. cbn [bind].
      rewrite (slice_cons l last q x) by (lia || exact X). cbn [prefix_while].
      destruct k as [|k]; [lia |]. destruct (p x) eqn:P; cbn [walk].
      + replace (q =? last) with false by lia. unfold rd at 1. rewrite X. cbn [bind].
        assert (Q : sat p l q) by (exists x; auto).
        rewrite Hnext; [| lia | lia | intros j Hj; assert (j = q) as -> by lia; exact Q].
        unfold wh_next, nxt. replace (q <? length l) with true by lia. cbn [bind].
        pose proof (IH (S q) k ltac:(lia) ltac:(lia) ltac:(lia)) as I.
        assert (Hn' : forall s, S q <= s -> s < last -> (forall j, S q <= j <= s -> sat p l j) -> next s = wh_next l last p s).
        { intros s H1 H2 H3. apply Hnext; [lia | lia |]. intros j Hj.
          destruct (Nat.eq_dec j q) as [-> |N]; [exact Q | apply H3; lia]. }
        specialize (I Hn').
        destruct (wh_find l last p (S q)) as [t| |]; cbn [bind] in *; try discriminate. rewrite I. reflexivity.
      + rewrite Nat.eqb_refl. reflexivity.
  Qed.

  Lemma while_next_lemma first k : first <= last -> last - first < k ->
    while_next l last p k first = Ok (prefix_while p (slice l first last)).
  Proof using Hlast.
    intros Hf Hk. unfold while_next. rewrite wh_end. unfold wh_new.
    pose proof (while_walk (wh_next l last p) (last - first) first k eq_refl Hf Hk (fun s _ _ _ => eq_refl)) as W.
    destruct (wh_find l last p first); cbn [bind] in *; exact W.
  Qed.

  Lemma wh_inc_next s : s < last -> (last < length l \/ S s < last) -> wh_inc l last p s = wh_next l last p s.
  Proof using Hlast.
    intros Hs H. unfold wh_inc, wh_next, wh_find, nxt. replace (s <? length l) with true by lia. cbn [bind].
    destruct (S s =? last) eqn:E; [| reflexivity].
    unfold rd. destruct (nth_error l (S s)) as [x|] eqn:X; [| apply nth_error_None in X; lia]. cbn [bind].
    destruct (p x); f_equal; lia.
  Qed.

  Lemma while_inc_lemma first k : first <= last -> last - first < k ->
    (last < length l \/ exists i, first <= i < last /\ ~ sat p l i) ->
    while_inc l last p k first = Ok (prefix_while p (slice l first last)).
  Proof using Hlast.
    intros Hf Hk H. unfold while_inc. rewrite wh_end. unfold wh_new.
    pose proof (while_walk (wh_inc l last p) (last - first) first k eq_refl Hf Hk) as W.
    destruct (wh_find l last p first); cbn [bind] in *; apply W; intros s H1 H2 H3; apply wh_inc_next; try exact H2;
      (destruct H as [H | (i & Hi & N)]; [left; exact H |]; right;
       destruct (Nat.eq_dec (S s) last) as [E|E]; [| lia]; exfalso; apply N, H3; lia).
  Qed.

  Lemma while_inc_undefined_lemma first k : first < last -> last - first < k -> last = length l ->
    (forall i, first <= i < last -> sat p l i) ->
    while_inc l last p k first = UB.
  Proof using Hlast.
    intros Hf Hk E Hall. unfold while_inc. rewrite wh_end. unfold wh_new.
    assert (G : forall n q k, n = last - q -> first <= q < last -> n < k ->
              walk k (fun s => s =? last) (wh_inc l last p) (rd l) q = UB).
    { clear k Hk. induction n as [|n IH]; intros q k Hn Hq Hk; [lia |]. destruct k as [|k]; [lia |]. cbn [walk].
      replace (q =? last) with false by lia. destruct (Hall q Hq) as (x & X & _). unfold rd at 1. rewrite X. cbn [bind].
      unfold wh_inc at 1, nxt. replace (q <? length l) with true by lia. cbn [bind]. unfold rd at 1.
      destruct (Nat.eq_dec (S q) last) as [E'|E'].
      - rewrite (proj2 (nth_error_None l (S q))) by lia. reflexivity.
      - destruct (Hall (S q) ltac:(lia)) as (y & Y & Py). rewrite Y. cbn [bind]. rewrite Py.
        rewrite (IH (S q) k) by lia. reflexivity. }
    destruct (Hall first ltac:(lia)) as (x & X & P). unfold wh_find at 1. replace (first =? last) with false by lia.
    unfold rd at 1. rewrite X. cbn [bind]. rewrite P. unfold wh_new, wh_find. rewrite ?Nat.eqb_refl. cbn [bind].
    apply (G (last - first)); lia.
  Qed.

  Lemma while_prev_lemma d s r : s <= last -> r < s -> sat p l r -> (forall j, r < j < s -> ~ sat p l j) -> s - r <= d ->
    wh_prev l p d s = Ok r.
  Proof using Hlast.
    intros Hs Hr Sr Hn Hd. unfold wh_prev. destruct s as [|s]; [lia |]. cbn [prv bind].
    apply find_prev_ok; [exact Sr | lia | | lia]. intros j Hj. apply Hn. lia.
  Qed.
End WhileP.

(** ** next, prev, advance, distance *)
Section MovesP.
  Context {S : Type}.

  Lemma after_split (op : S -> res S) (a b : nat) s u : after (ok op) s (a + b) u ->
    exists t, after (ok op) s a t /\ after (ok op) t b u.
  Proof using.
    revert u. induction b as [|b IH]; intros u H.
    - rewrite Nat.add_0_r in H. exists u. split; [exact H | constructor].
    - rewrite Nat.add_succ_r in H. inversion H as [|i v w Hv Hw]; subst. destruct (IH v Hv) as (t & T1 & T2).
      exists t. split; [exact T1 |]. eapply after_S; eassumption.
  Qed.

  Lemma halve_lemma (op : S -> res S) d : forall n s t, 1 <= n -> Nat.log2_up n < d -> after (ok op) s n t ->
    halve op d s (Z.of_nat n) = Ok t.
  Proof using.
    induction d as [|d IH]; intros n s t Hn Hd H; [lia |]. cbn [halve].
    destruct (Z.of_nat n =? 1)%Z eqn:E.
    - assert (n = 1) as -> by lia. inversion H as [|i u v Hu Hv]; subst. inversion Hu; subst. exact Hv.
    - assert (N : 2 <= n) by lia. pose proof (log2_half n N) as L1. pose proof (log2_half' n N) as L2.
      assert (Q : Z.quot (Z.of_nat n) 2 = Z.of_nat (n / 2)).
      { rewrite Nat2Z.inj_div. apply Z.quot_div_nonneg; lia. }
      pose proof (Nat.div_mod n 2 ltac:(lia)) as D. pose proof (Nat.mod_upper_bound n 2 ltac:(lia)) as U.
      set (h := n / 2) in *. rewrite Q.
      replace n with (h + (n - h)) in H by lia. apply after_split in H. destruct H as (u & H1 & H2).
      rewrite (IH h s u); [| lia | lia | exact H1]. cbn [bind].
      replace (Z.of_nat n - Z.of_nat h)%Z with (Z.of_nat (n - h)) by lia. apply IH; [lia | lia | exact H2].
  Qed.

  Lemma halve_neg_lemma (op : S -> res S) d : forall n s t, 1 <= n -> Nat.log2_up n < d -> after (ok op) s n t ->
    halve_neg op d s (- Z.of_nat n) = Ok t.
  Proof using.
    induction d as [|d IH]; intros n s t Hn Hd H; [lia |]. cbn [halve_neg].
    destruct (- Z.of_nat n =? -1)%Z eqn:E.
    - assert (n = 1) as -> by lia. inversion H as [|i u v Hu Hv]; subst. inversion Hu; subst. exact Hv.
    - assert (N : 2 <= n) by lia. pose proof (log2_half n N) as L1. pose proof (log2_half' n N) as L2.
      assert (Q : Z.quot (- Z.of_nat n) 2 = (- Z.of_nat (n / 2))%Z).
      { rewrite Z.quot_opp_l by lia. rewrite Nat2Z.inj_div. f_equal. apply Z.quot_div_nonneg; lia. }
      pose proof (Nat.div_mod n 2 ltac:(lia)) as D. pose proof (Nat.mod_upper_bound n 2 ltac:(lia)) as U.
      set (h := n / 2) in *. rewrite Q.
      replace n with (h + (n - h)) in H by lia. apply after_split in H. destruct H as (u & H1 & H2).
      rewrite (IH h s u); [| lia | lia | exact H1]. cbn [bind].
      replace (- Z.of_nat n - - Z.of_nat h)%Z with (- Z.of_nat (n - h))%Z by lia. apply IH; [lia | lia | exact H2].
  Qed.

  Lemma up_lemma (nx : S -> res S) n : forall k s t, n < k -> after (ok nx) s n t -> up nx k s (Z.of_nat n) = Ok t.
  Proof using.
    induction n as [|n IH]; intros k s t Hk H; (destruct k as [|k]; [lia |]); cbn [up].
    - replace (0 <? Z.of_nat 0)%Z with false by lia. inversion H; subst. reflexivity.
    - replace (0 <? Z.of_nat (Datatypes.S n))%Z with true by lia. apply after_step in H. destruct H as (u & -> & H).
      cbn [bind]. replace (Z.of_nat (Datatypes.S n) - 1)%Z with (Z.of_nat n) by lia. apply IH; [lia | exact H].
  Qed.

  Lemma down_lemma (pv : S -> res S) n : forall k s t, n < k -> after (ok pv) s n t -> down pv k s (- Z.of_nat n) = Ok t.
  Proof using.
    induction n as [|n IH]; intros k s t Hk H; (destruct k as [|k]; [lia |]); cbn [down].
    - replace (- Z.of_nat 0 <? 0)%Z with false by lia. inversion H; subst. reflexivity.
    - replace (- Z.of_nat (Datatypes.S n) <? 0)%Z with true by lia. apply after_step in H. destruct H as (u & -> & H).
      cbn [bind]. replace (- Z.of_nat (Datatypes.S n) + 1)%Z with (- Z.of_nat n)%Z by lia. apply IH; [lia | exact H].
  Qed.

  Lemma moves_forward_lemma (nx pv : S -> res S) d k n s t : Nat.log2_up n < d -> n < k -> after (ok nx) s n t ->
    next_n nx pv d s (Z.of_nat n) = Ok t /\ prev_n nx pv d s (- Z.of_nat n) = Ok t /\
    advance nx pv k s (Z.of_nat n) = Ok t.
  Proof using.
    intros Hd Hk H. unfold next_n, prev_n, advance. destruct (Nat.eq_dec n 0) as [-> |N].
    - inversion H; subst. cbn. destruct k; [lia |]. repeat split; reflexivity.
    - replace (Z.of_nat n =? 0)%Z with false by lia. replace (0 <? Z.of_nat n)%Z with true by lia.
      replace (- Z.of_nat n =? 0)%Z with false by lia. replace (0 <? - Z.of_nat n)%Z with false by lia.
      split; [| split].
      + apply halve_lemma; (lia || exact H).
      + apply halve_neg_lemma; (lia || exact H).
      + now apply up_lemma.
  Qed.

  Lemma moves_backward_lemma (nx pv : S -> res S) d k n s t : Nat.log2_up n < d -> n < k -> after (ok pv) s n t ->
    next_n nx pv d s (- Z.of_nat n) = Ok t /\ prev_n nx pv d s (Z.of_nat n) = Ok t /\
    advance nx pv k s (- Z.of_nat n) = Ok t.
  Proof using.
    intros Hd Hk H. unfold next_n, prev_n, advance. destruct (Nat.eq_dec n 0) as [-> |N].
    - inversion H; subst. cbn. destruct k; [lia |]. repeat split; reflexivity.
    - replace (Z.of_nat n =? 0)%Z with false by lia. replace (0 <? Z.of_nat n)%Z with true by lia.
      replace (- Z.of_nat n =? 0)%Z with false by lia. replace (0 <? - Z.of_nat n)%Z with false by lia.
      split; [| split].
      + apply halve_neg_lemma; (lia || exact H).
      + apply halve_lemma; (lia || exact H).
      + now apply down_lemma.
  Qed.

  Lemma distance_lemma (nx : S -> res S) (eqb : S -> S -> bool) n : forall d k first last,
    after (ok nx) first n last ->
    (forall i s, i < n -> after (ok nx) first i s -> eqb s last = false) -> eqb last last = true ->
    depth_bound n <= d -> n < k ->
    distance nx eqb d first last = Ok (Z.of_nat n) /\ cxx14_distance nx eqb k first last 0 = Ok (Z.of_nat n).
  Proof using.
    intros d k first last H Hne He Hd Hk.
    assert (AS : forall a b m t, nx a = Ok b -> after (ok nx) b m t -> after (ok nx) a (Datatypes.S m) t).
    { intros a b m t N Hm. induction Hm; [apply after_S with a; [constructor | exact N] |]. eapply after_S; eassumption. }
    split.
    - unfold distance.
      assert (L : forall m s z, after (ok nx) s m last -> (forall i t, i < m -> after (ok nx) s i t -> eqb t last = false) ->
                loop (stop (fun s : S * Z => eqb (fst s) last)) (fun s : S * Z => t <- nx (fst s) ;; Ok (t, (snd s + 1)%Z))
                  (Datatypes.S m) (s, z) = Ok (last, (z + Z.of_nat m)%Z)).
      { clear H Hne. induction m as [|m IH]; intros s z H Hne.
        - inversion H; subst. cbn [loop]. unfold stop. cbn [fst]. rewrite He. cbn [bind]. do 2 f_equal. lia.
        - cbn [loop]. unfold stop at 1. cbn [fst]. rewrite (Hne 0 s); [| lia | constructor]. cbn [bind].
          apply after_step in H. destruct H as (b & Nb & Hb). rewrite Nb. cbn [bind snd].
          etransitivity; [apply (IH b (z + 1)%Z Hb) |].
          + intros i t Hi Ht. apply (Hne (Datatypes.S i)); [lia |]. now apply (AS s b).
          + do 2 f_equal. lia. }
      rewrite (dbl_stop_correct _ _ (Datatypes.S n) _ _ _ (L n first 0%Z H Hne)); [reflexivity |].
      unfold depth_bound in Hd. destruct n as [|n]; [cbn; lia |].
      rewrite (Nat.log2_up_eqn (Datatypes.S (Datatypes.S n))) by lia. cbn [Nat.pred]. lia.
    - assert (L : forall m k s z, m < k -> after (ok nx) s m last -> (forall i t, i < m -> after (ok nx) s i t -> eqb t last = false) ->
                cxx14_distance nx eqb k s last z = Ok (z + Z.of_nat m)%Z).
      { clear k H Hne Hk. induction m as [|m IH]; intros k s z Hk H Hne; (destruct k as [|k]; [lia |]); cbn [cxx14_distance].
        - inversion H; subst. rewrite He. f_equal. lia.
        - rewrite (Hne 0 s); [| lia | constructor]. apply after_step in H. destruct H as (b & Nb & Hb). rewrite Nb. cbn [bind].
          rewrite (IH k b (z + 1)%Z); [f_equal; lia | lia | exact Hb |].
          intros i t Hi Ht. apply (Hne (Datatypes.S i)); [lia |]. now apply (AS s b). }
      now rewrite (L n k first 0%Z Hk H Hne).
  Qed.
End MovesP.

Lemma nth_ext_error {A} (xs : list A) : forall ys, (forall i, nth_error xs i = nth_error ys i) -> xs = ys.
Proof.
  induction xs as [|x xs IH]; intros [|y ys] H; [reflexivity | | |].
  - discriminate (H 0).
  - discriminate (H 0).
  - pose proof (H 0) as H0. cbn in H0. injection H0 as ->. f_equal. apply IH. intros i. apply (H (S i)).
Qed.

(** ** step_iterator in terms of the elements visited *)
Section StepsQ.
  Context {A : Type}.
  Variables (l : list A) (w p : nat).
  Hypothesis Hw : 1 <= w.
  Hypothesis Hp : p < length l.
  Notation M := ((length l - p - 1) / w).

  Lemma steps_elements_lemma k : length l < k ->
    exists out, steps_until_end l k (Z.of_nat w) (Z.of_nat p) = Ok out /\
      steps_next_until_end l k (Z.of_nat w) (Z.of_nat p) = Ok out /\ every_nth w (skipn p l) out.
  Proof using Hw Hp.
    intros Hk. unfold steps_until_end, steps_next_until_end. rewrite (st_begin_f l w p Hw Hp). cbn [bind].
    destruct (steps_walk l w p Hw Hp k (st_inc l) (stf_inc l w p Hw Hp) Hk) as (o1 & E1 & W1).
    destruct (steps_walk l w p Hw Hp k (st_next l) (stf_next l w p Hw Hp) Hk) as (o2 & E2 & W2).
    assert (o1 = o2) as <- by (apply nth_ext_error; intros i; now rewrite W1, W2).
    exists o1. auto.
  Qed.

  Lemma every_bound out i : every_nth w (skipn p l) out -> i < length out <-> i <= M.
  Proof using Hw Hp.
    intros W. pose proof (M_bounds l w p Hw) as (B1 & B2). specialize (W i). rewrite nth_skipn in W.
    set (q := (length l - p - 1) / w) in *. split; intros H.
    - apply nth_error_Some in H. rewrite W in H. apply nth_error_Some in H. nia.
    - apply nth_error_Some. rewrite W. apply nth_error_Some. nia.
  Qed.

  Lemma steps_offsets_lemma out b : every_nth w (skipn p l) out -> st_begin l (Z.of_nat w) (Z.of_nat p) = Ok b ->
    forall i j s t x, i < j -> nth_error out j = Some x -> after (ok (st_inc l)) b i s -> after (ok (st_inc l)) b j t ->
    st_plus l s (Z.of_nat j - Z.of_nat i) = Ok t /\ st_deref l t = Ok x /\
    st_sub l s (Z.of_nat j - Z.of_nat i) = Ok x.
  Proof using Hw Hp.
    intros W B i j s t x Hij X Hs Ht. rewrite (st_begin_f l w p Hw Hp) in B. injection B as <-.
    pose proof (nth_error_lt _ _ _ X) as J. apply (every_bound out j W) in J.
    apply (after_inc l w p Hw Hp) in Hs; [| lia]. apply (after_inc l w p Hw Hp) in Ht; [| lia]. subst.
    rewrite (W j), nth_skipn in X. split; [now apply stf_plus |]. split.
    - rewrite stf_deref. rewrite Nat.min_l by exact J. now rewrite X.
    - unfold st_sub, stf. cbn [st_cur st_wid]. pose proof (nth_error_lt _ _ _ X) as L.
      set (q := (length l - p - 1) / w) in *. rewrite (Nat.min_l i q) by lia.
      rewrite (mv_to (len l) _ _ (Z.of_nat (p + j * w))); [cbn [bind] | nia | unfold len; nia].
      apply get_ok with (p + j * w); [lia | exact X].
  Qed.

  Lemma steps_difference_lemma out b e : every_nth w (skipn p l) out ->
    st_begin l (Z.of_nat w) (Z.of_nat p) = Ok b -> st_end l (Z.of_nat w) = Ok e ->
    st_diff e b = (Z.of_nat (length out) + (if ((length l - p) mod w =? 0)%nat then 1 else 0))%Z.
  Proof using Hw Hp.
    intros W B E. rewrite (st_begin_f l w p Hw Hp) in B. injection B as <-.
    rewrite (st_difference l w p Hw Hp e E). pose proof (every_bound out (length out - 1) W) as U.
    pose proof (every_bound out (length out) W) as V. pose proof (M_bounds l w p Hw) as (B1 & B2).
    assert (L : 0 < length out) by (apply (proj2 (every_bound out 0 W)), Nat.le_0_l).
    pose proof (Nat.div_mod (length l - p) w ltac:(lia)) as D.
    pose proof (Nat.mod_upper_bound (length l - p) w ltac:(lia)) as R.
    set (q := (length l - p - 1) / w) in *. set (r := (length l - p) / w) in *. set (m := (length l - p) mod w) in *.
    assert (length out = q + 1) by lia. destruct (m =? 0) eqn:Z0.
    - assert (m = 0) by lia. assert (r = q + 1) by nia. lia.
    - assert (0 < m) by lia. assert (r = q) by nia. lia.
  Qed.

  Lemma steps_back_lemma out b : every_nth w (skipn p l) out -> st_begin l (Z.of_nat w) (Z.of_nat p) = Ok b ->
    forall i s t, S i < length out -> after (ok (st_inc l)) b i s -> st_inc l s = Ok t ->
    if S i =? length out - 1 then st_dec l t = Ok t /\ (exists u, st_prev l t = Ok u /\ st_cur u = st_cur t /\ st_is_last u = true)
    else st_dec l t = Ok s /\ st_prev l t = Ok s.
  Proof using Hw Hp.
    intros W B i s t Hi Hs Ht. rewrite (st_begin_f l w p Hw Hp) in B. injection B as <-.
    pose proof (every_bound out (S i) W) as U. pose proof (every_bound out (length out - 1) W) as V.
    pose proof (every_bound out (length out) W) as V'.
    assert (E : (S i =? length out - 1) = (S i =? M)) by (set (q := (length l - p - 1) / w) in *; lia).
    assert (Q : i < M) by (set (q := (length l - p - 1) / w) in *; lia).
    apply (after_inc l w p Hw Hp) in Hs; [| generalize dependent M; intros; lia]. subst s. rewrite (stf_inc l w p Hw Hp) in Ht by (clear - Q; set (q := M) in *; lia). injection Ht as <-.
    destruct (stf_prev l w p Hw Hp i Q) as (P1 & P2). rewrite E, P1, P2. destruct (S i =? M) eqn:K; [| auto].
    split; [reflexivity |]. exists (stf l w p (S M)). split; [reflexivity |]. unfold stf. cbn [st_cur st_is_last].
    set (q := (length l - p - 1) / w) in *. split; [| lia]. do 3 f_equal. lia.
  Qed.

  Lemma steps_zero_lemma out b : every_nth w (skipn p l) out -> st_begin l (Z.of_nat w) (Z.of_nat p) = Ok b ->
    forall i s, i < length out -> after (ok (st_inc l)) b i s ->
    exists t, st_plus l s 0 = Ok t /\ st_is_last t = true.
  Proof using Hw Hp.
    intros W B i s Hi Hs. rewrite (st_begin_f l w p Hw Hp) in B. injection B as <-.
    apply (every_bound out i W) in Hi. apply (after_inc l w p Hw Hp) in Hs; [| lia]. subst s. now apply stf_zero.
  Qed.
End StepsQ.
