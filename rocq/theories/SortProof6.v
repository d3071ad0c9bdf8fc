(** next_permutation and prev_permutation. *)
From Coq Require Import List Arith NArith Bool Lia Permutation ZArith.
From Verif Require Import Base BaseProof SearchSpec SearchProof OrderSpec OrderModel OrderProof OrderProof4 ListFacts
  MutModel MutSpec MutProof MutProof3 SetSpec SetProof SortModel ValFacts SortProof SortSpec SortProof5.
Import ListNotations.

Section P.
  Context {A : Type}.
  Variable comp : A -> A -> bool.
  Hypothesis W : strict_weak_order comp.
  Implicit Types (m : list A) (first last i j k : nat).

  Lemma desc_cons x y xs : desc comp (y :: xs) -> comp x y = false -> desc comp (x :: y :: xs).
  Proof.
    intros D H. split; [|exact D]. intros z [<-|Hz]; [exact H|]. destruct D as [D _].
    exact (swo_neg comp W _ _ _ H (D z Hz)).
  Qed.

  Lemma asc_sorted xs : asc comp xs -> sorted_list comp xs.
  Proof.
    intros H. apply (sorted_list_iff comp W). induction xs as [|x xs IH]; [constructor|]. destruct H as [H1 H2]. apply ssorted_cons; auto.
  Qed.

  (** one call *)
  Definition next_post (xs : list A) (b : bool) (ys : list A) : Prop :=
    Permutation xs ys /\ if b then next_of comp xs ys else is_last_perm comp xs /\ is_first_perm comp ys /\ sorted_list comp ys.

  Lemma next_permutation_ok k m first last : valid m first last -> last - first < k ->
    wp (next_permutation comp k m first last)
      (fun r => exists ys, fst r = paste m first ys /\ next_post (slice m first last) (snd r) ys).
  Proof.
    intros V Hk. pose proof V as [V1 V2].
    assert (SHORT : last - first <= 1 -> next_post (slice m first last) false (slice m first last)).
    { intros H. assert (D : desc comp (slice m first last)).
      { pose proof (slice_length m first last V2) as L. destruct (slice m first last) as [|x [|y l]]; cbn in *; [tauto|split; [easy|tauto]|lia]. }
      assert (E : rev (slice m first last) = slice m first last).
      { pose proof (slice_length m first last V2) as L. destruct (slice m first last) as [|x [|y l]]; cbn in *; auto; lia. }
      destruct (last_perm_desc comp W _ D) as [F1 F2]. rewrite E in F2. split; [reflexivity|]. split; [exact F1|]. split; [exact F2|].
      apply asc_sorted. rewrite <- E. now apply asc_rev. }
    unfold next_permutation. destruct (Nat.eqb_spec first last) as [E|N].
    { cbn [wp fst snd]. exists (slice m first last). split; [now rewrite paste_slice|]. apply SHORT. lia. }
    apply wp_bind, wp_dec; [lia|]. destruct (Nat.eqb_spec first (last - 1)) as [E|N'].
    { cbn [wp fst snd]. exists (slice m first last). split; [now rewrite paste_slice|]. apply SHORT. lia. }
    destruct m as [|d0 m0]; [cbn in V2; lia|]. set (m := d0 :: m0) in *. clearbody m.
    assert (SL : forall i, i < last -> slice m i last = v d0 m i :: slice m (S i) last).
    { intros i Hi. apply slice_cons; [exact Hi|]. apply nth_error_v. lia. }
    apply (wp_iter (fun i => first < i < last /\ desc comp (slice m i last)) (fun i => i - first)); [| |lia].
    2:{ split; [lia|]. rewrite SL, slice_nil by lia. cbn. split; [easy|tauto]. }
    intros ip1 [Hi D]. cbv zeta. apply wp_bind, wp_dec; [lia|]. apply wp_bind, (wp_cmp comp d0); [lia|lia|].
    destruct (comp _ _) eqn:C.
    - apply wp_bind.
      apply (wp_mono _ (fun j => ip1 <= j < last /\ comp (v d0 m (ip1 - 1)) (v d0 m j) = true /\
                forall n, j < n < last -> comp (v d0 m (ip1 - 1)) (v d0 m n) = false)).
      { apply (wp_iter (fun j => ip1 < j <= last /\ forall n, j <= n < last -> comp (v d0 m (ip1 - 1)) (v d0 m n) = false)
                 (fun j => j - ip1)); [|split; [lia|intros n Hn; lia]|lia].
        intros j [Hj H]. apply wp_bind, wp_dec; [lia|]. apply wp_bind, (wp_cmp comp d0); [lia|lia|].
        destruct (comp _ (v d0 m (j - 1))) eqn:C'; cbn [wp negb].
        - split; [lia|]. split; [exact C'|]. intros n Hn. apply H. lia.
        - assert (j - 1 <> ip1) by (intros Ej; rewrite Ej in C'; congruence). split; [|lia]. split; [lia|].
          intros n Hn. destruct (Nat.eq_dec n (j - 1)) as [->|Nn]; [exact C'|apply H; lia]. }
      intros j (Hj & Cj & Hlast).
      set (i := ip1 - 1) in *. set (x := v d0 m i) in *. set (y := v d0 m j) in *.
      destruct (split3 m first last V) as (P & Q & Hm & HP).
      set (p := slice m first i) in *. set (s1 := slice m ip1 j) in *. set (s2 := slice m (S j) last) in *.
      assert (ES : slice m ip1 last = s1 ++ y :: s2) by (rewrite (slice_app m ip1 j last), (SL j) by lia; reflexivity).
      assert (EX : slice m first last = p ++ x :: s1 ++ y :: s2).
      { rewrite (slice_app m first i last), (SL i) by lia. replace (S i) with ip1 by lia. now rewrite ES. }
      assert (Lp : length p = i - first) by (apply slice_length; lia).
      assert (Ls1 : length s1 = j - ip1) by (apply slice_length; lia).
      assert (Ls2 : length s2 = last - S j) by (apply slice_length; lia).
      assert (SW : iter_swap m i j = Ok (P ++ p ++ y :: s1 ++ x :: s2 ++ Q)).
      { replace i with (length (P ++ p)) by (rewrite app_length; lia).
        replace j with (length (P ++ p) + S (length s1)) by (rewrite app_length; lia).
        rewrite (swap_split m (P ++ p) x s1 y (s2 ++ Q)); [now rewrite <- ?app_assoc|].
        rewrite Hm at 1. rewrite EX. rewrite <- ?app_assoc. cbn [app]. rewrite <- !app_assoc. reflexivity. }
      rewrite SW. cbn [bind]. set (m1 := P ++ p ++ y :: s1 ++ x :: s2 ++ Q).
      assert (E1 : m1 = (P ++ p ++ [y]) ++ (s1 ++ x :: s2) ++ Q).
      { unfold m1. rewrite <- ?app_assoc. cbn [app]. rewrite <- ?app_assoc. reflexivity. }
      assert (LQ : length Q = length m - last).
      { apply (f_equal (@length A)) in Hm. rewrite !app_length, (slice_length m first last) in Hm by lia. lia. }
      assert (L1 : length m1 = length m).
      { rewrite E1, !app_length. cbn [length]. lia. }
      assert (E2 : slice m1 ip1 last = s1 ++ x :: s2).
      { unfold slice. rewrite E1. replace ip1 with (length (P ++ p ++ [y])) at 2 by (rewrite !app_length; cbn [length]; lia).
        rewrite skipn_app, skipn_all, Nat.sub_diag. cbn [app skipn].
        replace (last - ip1) with (length (s1 ++ x :: s2)) by (rewrite app_length; cbn [length]; lia).
        rewrite firstn_app, firstn_all, Nat.sub_diag. cbn [firstn]. apply app_nil_r. }
      rewrite (reverse_correct_lemma k m1 ip1 last) by (unfold valid in *; lia). cbn [bind wp fst snd].
      rewrite E2. exists (p ++ y :: rev (s1 ++ x :: s2)). split.
      + replace ip1 with (length (P ++ p ++ [y])) at 1 by (rewrite !app_length; cbn [length]; lia).
        rewrite (paste_split m1 _ _ _ _ E1) by apply rev_length.
        rewrite <- HP. rewrite (paste_split m P (slice m first last) Q) ; [|exact Hm|].
        * rewrite <- !app_assoc. cbn [app]. reflexivity.
        * rewrite EX, !app_length. cbn [length]. rewrite rev_length, !app_length. cbn [length]. reflexivity.
      + rewrite EX. assert (NX : next_of comp (p ++ x :: s1 ++ y :: s2) (p ++ y :: rev (s1 ++ x :: s2))).
        { apply (next_of_step comp W); [now rewrite <- ES|exact Cj|].
          intros z Hz. apply in_slice in Hz. destruct Hz as (n & Hn & En). rewrite <- (v_nth_error d0 m n z En). apply Hlast. lia. }
        split; [apply NX|exact NX].
    - assert (D' : desc comp (slice m (ip1 - 1) last)).
      { rewrite SL by lia. replace (S (ip1 - 1)) with ip1 by lia. rewrite SL in D |- * by lia. now apply desc_cons. }
      destruct (Nat.eqb_spec (ip1 - 1) first) as [E|N2].
      + rewrite reverse_correct_lemma by auto. cbn [bind wp fst snd]. eexists. split; [reflexivity|].
        rewrite E in D'. destruct (last_perm_desc comp W _ D') as [F1 F2].
        split; [apply Permutation_rev|]. split; [exact F1|]. split; [exact F2|]. apply asc_sorted. now apply asc_rev.
      + cbn [wp]. split; [|lia]. split; [lia|exact D'].
  Qed.

  Lemma next_permutation_correct_lemma k m first last : valid m first last -> last - first < k ->
    exists ys b, next_permutation comp k m first last = Ok (paste m first ys, b) /\
      Permutation (slice m first last) ys /\
      (b = true -> next_of comp (slice m first last) ys) /\
      (b = false -> is_last_perm comp (slice m first last) /\ is_first_perm comp ys /\ sorted_list comp ys).
  Proof.
    intros V Hk. pose proof (next_permutation_ok k m first last V Hk) as H.
    destruct (next_permutation comp k m first last) as [[m' b]| |]; cbn [wp fst snd] in H; try easy.
    destruct H as (ys & -> & HP & H). exists ys, b. split; [reflexivity|]. split; [exact HP|].
    destruct b; split; intros E; try discriminate; auto.
  Qed.
End P.

Lemma iter_ext {S R} (f g : S -> res (S + R)) : (forall s, f s = g s) -> forall k s, iter k f s = iter k g s.
Proof. intros H. induction k as [|k IH]; intros s; [reflexivity|]. cbn [iter]. rewrite H. destruct (g s) as [[s'|r]| |]; cbn; auto. Qed.

Section Q.
  Context {A : Type}.
  Variable comp : A -> A -> bool.
  Hypothesis W : strict_weak_order comp.
  Implicit Types (m : list A) (first last i j k : nat).
  Let flp x y := comp y x.

  Lemma flip_swo : strict_weak_order flp.
  Proof.
    destruct W as (H1 & H2 & H3). unfold flp. split; [|split].
    - intros x. apply H1.
    - intros x y z Hxy Hyz. exact (H2 z y x Hyz Hxy).
    - intros x y z E1 E2. apply and_comm. apply (H3 x y z); now apply and_comm.
  Qed.

  Lemma cmp_flip m a b : cmp comp m a b = cmp flp m b a.
  Proof.
    unfold cmp, rd. destruct (nth_error m a) as [x|], (nth_error m b) as [y|]; reflexivity.
  Qed.

  Lemma prev_is_next k m first last : prev_permutation comp k m first last = next_permutation flp k m first last.
  Proof.
    unfold prev_permutation, next_permutation. destruct (first =? last); [reflexivity|]. destruct (dec last) as [i| |]; cbn [bind]; auto.
    destruct (first =? i); [reflexivity|]. apply iter_ext. intros ip1. cbv zeta. destruct (dec ip1) as [i'| |]; cbn [bind]; auto.
    rewrite cmp_flip. destruct (cmp flp m i' ip1) as [[|]| |]; cbn [bind]; auto.
    rewrite (iter_ext (fun j => j <- dec j ;; b <- cmp comp m j i' ;; Ok (if negb b then inl j else inr j))
                      (fun j => j <- dec j ;; b <- cmp flp m i' j ;; Ok (if negb b then inl j else inr j))); [reflexivity|].
    intros j. destruct (dec j); cbn [bind]; auto. now rewrite cmp_flip.
  Qed.

  Lemma equivalent_flip x y : equivalent flp x y <-> equivalent comp x y.
  Proof. unfold equivalent, flp. tauto. Qed.

  Lemma before_flip : forall a b, before flp a b <-> before comp b a.
  Proof.
    induction a as [|x a IH]; intros [|y b]; cbn; try tauto. rewrite IH, equivalent_flip. unfold flp, equivalent. tauto.
  Qed.

  Lemma prev_permutation_correct_lemma k m first last : valid m first last -> last - first < k ->
    exists ys b, prev_permutation comp k m first last = Ok (paste m first ys, b) /\
      Permutation (slice m first last) ys /\
      (b = true -> next_of comp ys (slice m first last)) /\
      (b = false -> is_first_perm comp (slice m first last) /\ is_last_perm comp ys).
  Proof.
    intros V Hk. rewrite prev_is_next.
    destruct (next_permutation_correct_lemma flp flip_swo k m first last V Hk) as (ys & b & E & HP & H1 & H2).
    exists ys, b. split; [exact E|]. split; [exact HP|]. split.
    - intros Hb. destruct (H1 Hb) as (P1 & P2 & P3). split; [now apply Permutation_sym|]. split; [now apply before_flip|].
      intros zs Q1 Q2 Q3. apply (P3 zs); [now transitivity ys|now apply before_flip|now apply before_flip].
    - intros Hb. destruct (H2 Hb) as (P1 & P2 & _). split; intros zs Q1 Q2.
      + apply (P1 zs Q1). now apply before_flip.
      + apply (P2 zs Q1). now apply before_flip.
  Qed.

  (** uniqueness of neighbours up to equivalence *)
  Lemma next_unique xs ys zs : next_of comp xs ys -> next_of comp xs zs -> alike comp ys zs.
  Proof.
    intros (P1 & B1 & N1) (P2 & B2 & N2).
    destruct (before_tri comp ys zs) as [H|[H|H]].
    - rewrite <- (Permutation_length P1). now apply Permutation_length.
    - exfalso. exact (N2 ys P1 B1 H).
    - exact H.
    - exfalso. exact (N1 zs P2 B2 H).
  Qed.
  Lemma prev_unique xs ys zs : next_of comp ys xs -> next_of comp zs xs -> alike comp ys zs.
  Proof.
    intros (P1 & B1 & N1) (P2 & B2 & N2).
    destruct (before_tri comp ys zs) as [H|[H|H]].
    - rewrite (Permutation_length P1). now rewrite (Permutation_length P2).
    - exfalso. exact (N1 zs (perm_trans P1 (Permutation_sym P2)) H B2).
    - exact H.
    - exfalso. exact (N2 ys (perm_trans P2 (Permutation_sym P1)) H B1).
  Qed.

  Lemma slice_paste m first last ys : valid m first last -> length ys = last - first -> slice (paste m first ys) first last = ys.
  Proof.
    intros [V1 V2] L. apply list_ext. intros n. destruct (Nat.lt_ge_cases n (last - first)) as [H|H].
    - rewrite nth_error_slice by exact H. rewrite nth_paste_in by lia. f_equal. lia.
    - transitivity (@None A); [apply nth_error_None|symmetry; apply nth_error_None; lia].
      rewrite slice_length by (rewrite paste_length; lia). lia.
  Qed.
  Lemma paste_paste m first xs ys : first + length xs <= length m -> length ys = length xs -> paste (paste m first xs) first ys = paste m first ys.
  Proof.
    intros H E. apply paste_ext; [lia| |].
    - intros j Hj. rewrite nth_paste_in; [reflexivity| |]; rewrite ?paste_length; lia.
    - intros j Hj. rewrite nth_paste_out; [|rewrite paste_length; lia|lia]. apply nth_paste_out; lia.
  Qed.

  Lemma next_prev_lemma k m first last m' : valid m first last -> last - first < k ->
    next_permutation comp k m first last = Ok (m', true) ->
    exists m'', prev_permutation comp k m' first last = Ok (m'', true) /\ rearranged m first last m'' /\
      alike comp (slice m'' first last) (slice m first last).
  Proof.
    intros V Hk E. pose proof V as [V1 V2]. destruct (next_permutation_correct_lemma comp W k m first last V Hk) as (ys & b & E' & HP & H1 & _).
    rewrite E in E'. injection E' as -> <-. specialize (H1 eq_refl).
    assert (L : length ys = last - first) by (rewrite <- (Permutation_length HP); apply slice_length; lia).
    assert (V' : valid (paste m first ys) first last) by (split; [lia|rewrite paste_length; lia]).
    destruct (prev_permutation_correct_lemma k _ first last V' Hk) as (zs & b & E' & HP' & H2 & H3).
    rewrite slice_paste in * by auto. destruct b.
    - specialize (H2 eq_refl).
      assert (L' : length zs = last - first) by (rewrite <- (Permutation_length HP'); exact L).
      exists (paste m first zs). rewrite E'. rewrite paste_paste by lia. split; [reflexivity|].
      rewrite slice_paste by auto. split.
      + exists zs. split; [now transitivity ys|reflexivity].
      + exact (prev_unique _ _ _ H2 H1).
    - exfalso. destruct (H3 eq_refl) as [F _]. destruct H1 as (Q1 & Q2 & _). exact (F _ (Permutation_sym Q1) Q2).
  Qed.

  Lemma prev_next_lemma k m first last m' : valid m first last -> last - first < k ->
    prev_permutation comp k m first last = Ok (m', true) ->
    exists m'', next_permutation comp k m' first last = Ok (m'', true) /\ rearranged m first last m'' /\
      alike comp (slice m'' first last) (slice m first last).
  Proof.
    intros V Hk E. pose proof V as [V1 V2]. destruct (prev_permutation_correct_lemma k m first last V Hk) as (ys & b & E' & HP & H1 & _).
    rewrite E in E'. injection E' as -> <-. specialize (H1 eq_refl).
    assert (L : length ys = last - first) by (rewrite <- (Permutation_length HP); apply slice_length; lia).
    assert (V' : valid (paste m first ys) first last) by (split; [lia|rewrite paste_length; lia]).
    destruct (next_permutation_correct_lemma comp W k _ first last V' Hk) as (zs & b & E' & HP' & H2 & H3).
    rewrite slice_paste in * by auto. destruct b.
    - specialize (H2 eq_refl).
      assert (L' : length zs = last - first) by (rewrite <- (Permutation_length HP'); exact L).
      exists (paste m first zs). rewrite E'. rewrite paste_paste by lia. split; [reflexivity|].
      rewrite slice_paste by auto. split.
      + exists zs. split; [now transitivity ys|reflexivity].
      + exact (next_unique _ _ _ H2 H1).
    - exfalso. destruct (H3 eq_refl) as [F _]. destruct H1 as (Q1 & Q2 & _). exact (F _ Q1 Q2).
  Qed.

  (** ** Enumeration *)
  Lemma reaches_map {B} (f : list A -> list B) (step : list A -> list A -> Prop) (step' : list B -> list B -> Prop) :
    (forall a b, step a b -> step' (f a) (f b)) -> forall n a b, reaches step n a b -> reaches step' n (f a) (f b).
  Proof.
    intros H. induction n as [|n IH]; intros a b R; cbn in *; [now subst|]. destruct R as (c & S & R). exists (f c). auto.
  Qed.

  Lemma sorted_first xs : sorted_list comp xs -> is_first_perm comp xs.
  Proof.
    intros S zs HP. apply asc_first; [exact W| |now apply perm_cnt].
    apply (sorted_list_iff comp W) in S. clear zs HP. induction xs as [|x xs IH]; [exact I|].
    apply ssorted_inv in S. destruct S as [S1 S2]. split; auto.
  Qed.

  Definition nstep k first last (a b : list A) : Prop := next_permutation comp k a first last = Ok (b, true).

  Lemma enumerates_lemma k m first last zs : valid m first last -> last - first < k ->
    sorted_list comp (slice m first last) -> Permutation (slice m first last) zs ->
    exists n ys, reaches (fun a b => next_permutation comp k a first last = Ok (b, true)) n m (paste m first ys) /\
      Permutation (slice m first last) ys /\ alike comp ys zs.
  Proof.
    intros V Hk S HP. pose proof V as [V1 V2].
    pose (step := fun xs ys => length xs = last - first /\ next_permutation comp k (paste m first xs) first last = Ok (paste m first ys, true)).
    destruct (reaches_all comp W step (slice m first last) zs) as (n & ys & R & P & E).
    - intros ys HY.
      assert (L : length ys = last - first) by (rewrite <- (Permutation_length HY); apply slice_length; lia).
      assert (V' : valid (paste m first ys) first last) by (split; [lia|rewrite paste_length; lia]).
      destruct (next_permutation_correct_lemma comp W k _ first last V' Hk) as (ws & b & E & HW & H1 & H2).
      rewrite slice_paste in * by auto.
      assert (L' : length ws = last - first) by (rewrite <- (Permutation_length HW); exact L).
      destruct b; [right|left; now apply H2].
      exists ws. split; [|auto]. split; [exact L|]. rewrite E. now rewrite paste_paste by lia.
    - now apply sorted_first.
    - exact HP.
    - exists n, ys. split; [|auto]. rewrite <- (paste_slice m first last V) at 1.
      revert R. apply (reaches_map (paste m first)). intros a b [_ H]. exact H.
  Qed.

  Lemma reaches_before k first last : last - first < k -> forall n m m', valid m first last ->
    reaches (nstep k first last) n m m' ->
    valid m' first last /\ (0 < n -> before comp (slice m first last) (slice m' first last)).
  Proof.
    intros Hk. induction n as [|n IH]; intros m m' V R; cbn in R.
    - subst. split; [exact V|lia].
    - destruct R as (c & S & R). pose proof V as [V1 V2].
      destruct (next_permutation_correct_lemma comp W k m first last V Hk) as (ys & b & E & HP & H1 & _).
      unfold nstep in S. rewrite S in E. injection E as -> <-. destruct (H1 eq_refl) as (_ & B & _).
      assert (L : length ys = last - first) by (rewrite <- (Permutation_length HP); apply slice_length; lia).
      assert (V' : valid (paste m first ys) first last) by (split; [lia|rewrite paste_length; lia]).
      destruct (IH _ _ V' R) as [V3 B3]. split; [exact V3|]. intros _. destruct n as [|n].
      + cbn in R. subst. now rewrite slice_paste.
      + eapply (before_trans comp W); [exact B|]. rewrite <- (slice_paste m first last ys V L) at 1. apply B3. lia.
  Qed.

  Lemma reaches_fun k first last : forall n j m a b,
    reaches (nstep k first last) n m a -> reaches (nstep k first last) (n + j) m b -> reaches (nstep k first last) j a b.
  Proof.
    induction n as [|n IH]; intros j m a b R1 R2; cbn in R1, R2.
    - subst. exact R2.
    - destruct R1 as (d & S1 & R1). destruct R2 as (e & S2 & R2). unfold nstep in S1, S2. rewrite S1 in S2. injection S2 as <-. eapply IH; eauto.
  Qed.

  Lemma visited_once_lemma k m first last n n' a b : valid m first last -> last - first < k ->
    reaches (fun a b => next_permutation comp k a first last = Ok (b, true)) n m a ->
    reaches (fun a b => next_permutation comp k a first last = Ok (b, true)) n' m b ->
    alike comp (slice a first last) (slice b first last) -> n = n'.
  Proof.
    intros V Hk. change (fun a b => next_permutation comp k a first last = Ok (b, true)) with (nstep k first last).
    assert (G : forall n j a b, reaches (nstep k first last) n m a -> reaches (nstep k first last) (n + S j) m b ->
      alike comp (slice a first last) (slice b first last) -> False).
    { intros n0 j a0 b0 R1 R2 E. pose proof (reaches_fun k first last n0 (S j) m a0 b0 R1 R2) as R.
      destruct (reaches_before k first last Hk n0 m a0 V R1) as [V' _].
      destruct (reaches_before k first last Hk (S j) a0 b0 V' R) as [_ B]. exact (before_irr comp _ _ E (B ltac:(lia))). }
    intros R1 R2 E. destruct (Nat.lt_trichotomy n n') as [C|[C|C]]; [exfalso| |exfalso].
    - apply (G n (n' - n - 1) a b); auto. now replace (n + S (n' - n - 1)) with n' by lia.
    - exact C.
    - apply (G n' (n - n' - 1) b a); auto; [|now apply alike_sym]. now replace (n' + S (n - n' - 1)) with n by lia.
  Qed.
End Q.
