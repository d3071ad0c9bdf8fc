(** Stable sorting. *)
From Coq Require Import List Arith NArith Bool Lia Permutation ZArith.
From Verif Require Import Base BaseProof SearchSpec SearchProof OrderSpec OrderModel OrderProof OrderProof3 ListFacts
  MutModel MutSpec MutProof MutProof3 SetModel SetSpec SetProof SetProof2 SortModel SortSpec ValFacts SortProof SortProof2 SortProof3.
Import ListNotations.

(** Partial correctness: nothing is claimed unless the result is [Ok]. *)
Definition wl {A} (r : res A) (Q : A -> Prop) : Prop := forall a, r = Ok a -> Q a.

Lemma wl_bind {A B} (r : res A) (f : A -> res B) Q : wl r (fun a => wl (f a) Q) -> wl (bind r f) Q.
Proof. destruct r; cbn [bind]; intros H b E; try discriminate. eapply H; eauto. Qed.
Lemma wl_wp {A} (r : res A) Q : wp r Q -> wl r Q.
Proof. intros H a ->. exact H. Qed.
Lemma wl_ok {A} (a : A) (Q : A -> Prop) : Q a -> wl (Ok a) Q.
Proof. intros H b E. now injection E as <-. Qed.
Lemma wl_mono {A} (r : res A) (P Q : A -> Prop) : wl r P -> (forall a, P a -> Q a) -> wl r Q.
Proof. intros H1 H2 a E. auto. Qed.
Lemma wl_iter {S R} (I : S -> Prop) (body : S -> res (S + R)) (Q : R -> Prop) :
  (forall s, I s -> wl (body s) (fun x => match x with inl s' => I s' | inr r => Q r end)) ->
  forall k s, I s -> wl (iter k body s) Q.
Proof.
  intros H. induction k as [|k IH]; intros s Hs; [discriminate|]. cbn [iter]. apply wl_bind.
  eapply wl_mono; [apply H; exact Hs|]. intros [s'|r] Hx; [now apply IH|now apply wl_ok].
Qed.

Section P.
  Context {A : Type}.
  Variable comp : A -> A -> bool.
  Hypothesis W : strict_weak_order comp.

  Section D.
  Variable d0 : A.
  Implicit Types (m : list A) (first last i j k p : nat).
  Notation v := (v d0).
  Notation rr := (@rr A).
  Notation le := (le comp).
  Notation sorted_in := (sorted_in comp d0).

  Definition st first last m m' : Prop := rr first last m m' /\
    forall z, class comp z (slice m' first last) = class comp z (slice m first last).

  Lemma st_refl first last m : valid m first last -> st first last m m.
  Proof. intros V. split; [now apply rr_refl|reflexivity]. Qed.

  Lemma st_trans first last m1 m2 m3 : valid m1 first last -> st first last m1 m2 -> st first last m2 m3 -> st first last m1 m3.
  Proof. intros V [R1 C1] [R2 C2]. split; [eapply rr_trans; eauto|]. intros z. rewrite C2. apply C1. Qed.

  Lemma rr_slice_out first last m m' a b : valid m first last -> rr first last m m' -> b <= length m -> b <= first \/ last <= a ->
    slice m' a b = slice m a b.
  Proof.
    intros V [L R] Hb H. apply rearranged_iff in R; [|exact V]. destruct R as (_ & O & _).
    apply list_ext. intros i. destruct (Nat.lt_ge_cases i (b - a)).
    - rewrite !nth_error_slice by lia. apply O. lia.
    - rewrite !nth_error_end; auto; unfold slice; rewrite firstn_length; lia.
  Qed.

  Lemma st_wider first last a b m m' : valid m a b -> a <= first -> first <= last -> last <= b -> st first last m m' -> st a b m m'.
  Proof.
    intros V H1 H2 H3 [R C]. pose proof V as [V1 V2]. split; [eapply (rr_wider first last); eauto|]. intros z.
    rewrite (slice_app m' a first b), (slice_app m' first last b), (slice_app m a first b), (slice_app m first last b) by lia.
    rewrite !class_app, C.
    assert (VF : valid m first last) by (split; lia).
    rewrite (rr_slice_out first last m m' a first), (rr_slice_out first last m m' last b) by (auto; lia). reflexivity.
  Qed.

  Lemma slice_one m i : i < length m -> slice m i (S i) = [v m i].
  Proof.
    intros H. apply list_ext. intros [|q].
    - rewrite nth_error_slice by lia. rewrite Nat.add_0_r. now apply nth_error_v.
    - rewrite !nth_error_end; cbn [length]; rewrite ?slice_length by lia; auto; lia.
  Qed.

  Lemma inserted_slice m j i m' : i < length m -> j <= i -> inserted d0 m j i m' -> slice m' j (S i) = v m i :: slice m j i.
  Proof.
    intros Hi Hj (L & E1 & E2 & E3). apply list_ext. intros [|q].
    - rewrite nth_error_slice by lia. rewrite Nat.add_0_r. cbn [nth_error]. rewrite (nth_error_v d0) by lia. now rewrite E2.
    - change (nth_error (v m i :: slice m j i) (S q)) with (nth_error (slice m j i) q). destruct (Nat.lt_ge_cases q (i - j)).
      + rewrite !nth_error_slice by lia. rewrite !(nth_error_v d0) by lia. rewrite E3 by lia. do 2 f_equal. lia.
      + rewrite !nth_error_end; rewrite ?slice_length by lia; auto; lia.
  Qed.

  Lemma inserted_st m j i m' : i < length m -> j <= i -> inserted d0 m j i m' ->
    (forall p, j <= p < i -> comp (v m i) (v m p) = true) -> st j (S i) m m'.
  Proof.
    intros Hi Hj I G. split; [now apply inserted_rr with (d0 := d0)|]. intros z.
    rewrite (inserted_slice m j i m' Hi Hj I). rewrite (slice_app m j i (S i)) by lia. rewrite (slice_one m i Hi).
    rewrite class_app. rewrite !class_cons, class_nil. destruct (equiv_to comp z (v m i)) eqn:E; [|now rewrite app_nil_r].
    rewrite (class_none comp z (slice m j i)); [reflexivity|].
    intros x Hx. apply in_slice in Hx. destruct Hx as (p & Hp & Ex). apply (v_nth_error d0) in Ex. subst x. left.
    apply equiv_iff in E. apply (le_lt_trans comp W _ (v m i)); [apply E|now apply G].
  Qed.

  (** ** unguarded_linear_insert *)
  Lemma unguarded_ok k m first i : i < length m -> first < i -> i - first <= k -> comp (v m i) (v m first) = false ->
    wp (unguarded_linear_insert comp k m i) (fun m' =>
      exists j, first < j <= i /\ inserted d0 m j i m' /\ (forall p, j <= p < i -> comp (v m i) (v m p) = true) /\
        (first < j -> le (v m (j - 1)) (v m i))).
  Proof.
    intros Hi Hf Hk C. unfold unguarded_linear_insert. apply wp_bind, (wp_rd_v d0); [lia|]. apply wp_bind, wp_dec; [lia|]. apply wp_bind.
    apply (wp_mono _ (fun '(m', j) => first < j <= i /\ shifted comp d0 m (v m i) j i m' /\
      (first < j -> le (v m (j - 1)) (v m i)))).
    - apply (wp_iter (fun '((m', j, p) : list A * nat * nat) => first < j <= i /\ p = j - 1 /\ shifted comp d0 m (v m i) j i m')
        (fun '((m', j, p) : list A * nat * nat) => j - first - 1)).
      + intros [[m' j] p] (Hj & -> & S). pose proof S as (L & E1 & _).
        apply wp_bind, (wp_rd_v d0); [lia|]. destruct (comp (v m i) (v m' (j - 1))) eqn:Cp.
        * assert (j - 1 <> first). { intros E. rewrite E1 in Cp by lia. rewrite E in Cp. congruence. }
          apply wp_bind, wp_wr; [lia|]. cbv zeta. apply wp_bind, wp_dec; [lia|]. cbn [wp].
          split; [|lia]. split; [lia|]. split; [reflexivity|]. apply shifted_step; auto; lia.
        * cbn [wp]. split; [lia|]. split; [exact S|]. intros _. rewrite E1 in Cp by lia. exact Cp.
      + split; [lia|]. split; [reflexivity|]. repeat split; intros; lia || reflexivity.
      + lia.
    - intros [m' j] (Hj & S & B). pose proof S as (L & _). apply wp_wr; [lia|].
      exists j. split; [lia|]. split; [eapply shifted_done; [exact S|lia|lia]|]. split; [apply S|exact B].
  Qed.

  Lemma move_backward_never k m first last result : first < last -> wl (move_backward k m first last result) (fun _ => False).
  Proof.
    intros H. unfold move_backward. apply wl_iter with (I := fun '((m, f, r) : list A * nat * nat) => f < last); [|exact H].
    intros [[m' f] r] Hf. destruct (Nat.eqb_spec f last) as [|_]; [lia|].
    destruct f as [|f]; [cbn [dec bind]; discriminate|]. cbn [dec bind].
    apply wl_bind. intros x _. destruct r as [|r]; [cbn [dec bind]; discriminate|]. cbn [dec bind].
    apply wl_bind. intros m2 _. apply wl_ok. lia.
  Qed.

  (** [m] with [first, i) stably sorted, the rest unchanged *)
  Definition ins_inv m first last m' i : Prop :=
    first < i <= last /\ st first i m m' /\ sorted_in m' first i /\
    v m' first = v m first /\ (forall q, first <= q < i -> le (v m first) (v m q)).

  Lemma ins_step k m first last m' i : valid m first last -> last - first <= k -> ins_inv m first last m' i -> i < last ->
    comp (v m' i) (v m' first) = false ->
    wp (unguarded_linear_insert comp k m' i) (fun m2 => ins_inv m first last m2 (S i)).
  Proof.
    intros [V1 V2] Hk (Hi & ST & S & Ef & MIN) Hlt C. pose proof ST as [R _]. pose proof R as [L _].
    eapply wp_mono; [apply (unguarded_ok k m' first i); [lia|lia|lia|exact C]|].
    intros m2 (j & Hj & I & G & B). pose proof I as (L2 & E1 & _).
    assert (Vi : valid m first i) by (split; lia).
    split; [lia|]. split; [|split; [|split]].
    - apply (st_trans _ _ _ m'); [split; lia| |].
      + apply (st_wider first i); [split; lia|lia|lia|lia|exact ST].
      + apply (st_wider j (Datatypes.S i)); [split; lia|lia|lia|lia|]. apply inserted_st; auto; lia.
    - eapply (inserted_sorted comp W d0); [exact S| |exact I|exact G|exact B]. lia.
    - rewrite E1 by lia. exact Ef.
    - intros q Hq. destruct (Nat.eq_dec q i) as [->|]; [|apply MIN; lia].
      unfold SortProof.le. rewrite <- Ef, <- (rr_out d0 first i m m' i) by (auto; lia). exact C.
  Qed.

  Lemma insertion_sort_wl k m first last : valid m first last -> last - first <= k ->
    wl (insertion_sort comp k m first last) (fun m' => st first last m m' /\ sorted_in m' first last /\
      forall q, first <= q < last -> le (v m first) (v m q)).
  Proof.
    intros V Hk. pose proof V as [V1 V2]. unfold insertion_sort. destruct (Nat.eqb_spec first last) as [->|N].
    { apply wl_ok. split; [now apply st_refl|]. split; [intros a b; lia|intros; lia]. }
    apply (wl_iter (fun '((m', i) : list A * nat) => ins_inv m first last m' i)).
    - intros [m' i] I. pose proof I as (Hi & ST & S & Ef & MIN). pose proof ST as [[L _] _].
      destruct (Nat.eqb_spec i last) as [->|Ni].
      { apply wl_ok. auto. }
      apply wl_bind, wl_wp, (wp_cmp comp d0); [lia|lia|]. destruct (comp (v m' i) (v m' first)) eqn:C.
      + apply wl_bind, wl_wp, (wp_rd_v d0); [lia|]. apply wl_bind.
        eapply wl_mono; [apply move_backward_never; lia|]. intros ? [].
      + apply wl_bind, wl_wp. eapply wp_mono; [apply (ins_step k m first last m' i); auto; lia|].
        intros m2 I2. now apply wl_ok.
    - split; [lia|]. split; [apply st_refl; split; lia|]. split; [intros a b; lia|]. split; [reflexivity|].
      intros q Hq. assert (q = first) as -> by lia. apply (le_refl comp W).
  Qed.

  Lemma insertion_sort_ok k m first last : valid m first last -> last - first <= k ->
    (forall q, first <= q < last -> le (v m first) (v m q)) ->
    wp (insertion_sort comp k m first last) (fun m' => st first last m m' /\ sorted_in m' first last).
  Proof.
    intros V Hk MN. pose proof V as [V1 V2]. unfold insertion_sort. destruct (Nat.eqb_spec first last) as [->|N].
    { cbn [wp]. split; [now apply st_refl|]. intros a b; lia. }
    apply (wp_iter (fun '((m', i) : list A * nat) => ins_inv m first last m' i) (fun '((m', i) : list A * nat) => last - i)).
    - intros [m' i] I. pose proof I as (Hi & ST & S & Ef & MIN). pose proof ST as [R _]. pose proof R as [L _].
      destruct (Nat.eqb_spec i last) as [->|Ni].
      { cbn [wp]. auto. }
      assert (C : comp (v m' i) (v m' first) = false).
      { rewrite Ef, (rr_out d0 first i m m' i); [apply MN; lia|split; lia|exact R|lia]. }
      apply wp_bind, (wp_cmp comp d0); [lia|lia|]. rewrite C.
      apply wp_bind. eapply wp_mono; [apply (ins_step k m first last m' i); auto; lia|].
      intros m2 I2. cbn [wp]. split; [exact I2|lia].
    - split; [lia|]. split; [apply st_refl; split; lia|]. split; [intros a b; lia|]. split; [reflexivity|].
      intros q Hq. assert (q = first) as -> by lia. apply (le_refl comp W).
    - lia.
  Qed.

  (** ** stable_sort *)
  Lemma merge_step r d k m first middle last : valid m first last -> first <= middle <= last ->
    sorted_in m first middle -> sorted_in m middle last -> last - first < r -> Nat.log2 (last - first) + 2 <= d -> last - first < k ->
    wp (inplace_merge_impl comp r d k m first middle last (middle - first) (last - middle))
      (fun m' => st first last m m' /\ sorted_in m' first last).
  Proof.
    intros V Hm S1 S2 Hr Hd Hk. pose proof V as [V1 V2].
    assert (SR1 : sorted_range comp m first middle) by (apply (sorted_in_range comp W d0); [split; lia|exact S1]).
    assert (SR2 : sorted_range comp m middle last) by (apply (sorted_in_range comp W d0); [split; lia|exact S2]).
    rewrite (inplace_merge_impl_ok comp W d k r) by assumption. cbn [wp].
    set (xs := slice m first middle). set (ys := slice m middle last). set (out := mrg comp xs ys).
    assert (LO : length out = last - first) by (unfold out; rewrite mrg_length; unfold xs, ys; rewrite !slice_length by lia; lia).
    assert (X : ssorted comp xs) by (apply (sorted_range_slice comp W); [split; lia|exact SR1]).
    assert (Y : ssorted comp ys) by (apply (sorted_range_slice comp W); [split; lia|exact SR2]).
    assert (SL : slice (paste m first out) first last = out).
    { replace last with (first + length out) by lia. apply slice_paste. lia. }
    assert (LP : length (paste m first out) = length m) by (apply paste_length; lia).
    split; [split; [split|]|].
    - exact LP.
    - exists out. split; [|reflexivity]. rewrite (slice_app m first middle last) by lia. apply mrg_perm.
    - intros z. rewrite SL, (slice_app m first middle last), class_app by lia. now apply mrg_class.
    - apply (sorted_in_range comp W d0); [split; lia|]. apply (sorted_range_slice comp W); [split; lia|].
      rewrite SL. now apply mrg_sorted.
  Qed.

  Lemma stable_sort_wl d k : forall r m first last, valid m first last -> last - first < r -> Nat.log2 (last - first) + 2 <= d -> last - first < k ->
    wl (stable_sort comp r d k m first last) (fun m' => st first last m m' /\ sorted_in m' first last).
  Proof.
    induction r as [|r IH]; intros m first last V Hr Hd Hk; [lia|]. pose proof V as [V1 V2]. cbn [stable_sort].
    destruct (Nat.ltb_spec (last - first) 15) as [C|C].
    { eapply wl_mono; [apply insertion_sort_wl; [exact V|lia]|]. intros m' (H1 & H2 & _). auto. }
    cbv zeta. set (n := last - first) in *. set (middle := first + n / 2).
    assert (D : n / 2 * 2 <= n < n / 2 * 2 + 2).
    { pose proof (Nat.div_mod n 2 ltac:(lia)). pose proof (Nat.mod_upper_bound n 2 ltac:(lia)). lia. }
    assert (LG : forall a, a <= n -> Nat.log2 a + 2 <= d) by (intros a Ha; pose proof (Nat.log2_le_mono a n Ha); lia).
    assert (M1 : middle = first + n / 2) by reflexivity. clearbody middle.
    apply wl_bind. eapply wl_mono; [apply IH; [split; lia|lia|apply LG; lia|lia]|]. intros m1 [ST1 S1]. pose proof ST1 as [[L1 _] _].
    apply wl_bind. eapply wl_mono; [apply IH; [split; lia|lia|apply LG; lia|lia]|]. intros m2 [ST2 S2]. pose proof ST2 as [R2 _]. pose proof R2 as [L2 _].
    apply wl_wp. eapply wp_mono; [apply (merge_step (S r) d k m2 first middle last); [split; lia|lia| |exact S2|lia|exact Hd|lia]|].
    - apply (sorted_in_rr comp d0 m1 m2 first middle middle last); [split; lia|exact R2|exact S1|lia].
    - intros m3 [ST3 S3]. split; [|exact S3].
      apply (st_trans _ _ _ m2); [exact V| |exact ST3].
      apply (st_trans _ _ _ m1); [exact V| |].
      + apply (st_wider first middle); [exact V|lia|lia|lia|exact ST1].
      + apply (st_wider middle last); [split; lia|lia|lia|lia|exact ST2].
  Qed.

  Lemma sorted_st_same m m' first last : valid m first last -> sorted_in m first last -> st first last m m' -> sorted_in m' first last -> m' = m.
  Proof.
    intros V S [R C] S'. pose proof V as [V1 V2]. pose proof R as [L _]. assert (V' : valid m' first last) by (split; lia).
    assert (E : slice m' first last = slice m first last).
    { apply (sorted_class_eq comp W).
      - apply (sorted_range_slice comp W); [exact V'|]. now apply (sorted_in_range comp W d0).
      - apply (sorted_range_slice comp W); [exact V|]. now apply (sorted_in_range comp W d0).
      - exact C. }
    apply list_ext. intros i. destruct (Nat.lt_ge_cases i first); [|destruct (Nat.lt_ge_cases i last)].
    - destruct R as [_ R]. apply rearranged_iff in R; [|exact V]. apply R. lia.
    - replace i with (first + (i - first)) by lia. rewrite <- !(nth_error_slice _ first last) by lia. now rewrite E.
    - destruct R as [_ R]. apply rearranged_iff in R; [|exact V]. apply R. lia.
  Qed.

  Lemma stable_sort_sorted d k : forall r m first last, valid m first last -> last - first < r -> Nat.log2 (last - first) + 2 <= d -> last - first < k ->
    sorted_in m first last -> stable_sort comp r d k m first last = Ok m.
  Proof.
    induction r as [|r IH]; intros m first last V Hr Hd Hk S; [lia|]. pose proof V as [V1 V2]. cbn [stable_sort].
    destruct (Nat.ltb_spec (last - first) 15) as [C|C].
    { apply wp_det. eapply wp_mono; [apply insertion_sort_ok; [exact V|lia|]|].
      - intros q Hq. destruct (Nat.eq_dec q first) as [->|]; [apply (le_refl comp W)|apply S; lia].
      - intros m' [ST S']. now apply (sorted_st_same m m' first last). }
    cbv zeta. set (n := last - first) in *. set (middle := first + n / 2).
    assert (D : n / 2 * 2 <= n < n / 2 * 2 + 2).
    { pose proof (Nat.div_mod n 2 ltac:(lia)). pose proof (Nat.mod_upper_bound n 2 ltac:(lia)). lia. }
    assert (LG : forall a, a <= n -> Nat.log2 a + 2 <= d) by (intros a Ha; pose proof (Nat.log2_le_mono a n Ha); lia).
    assert (M1 : middle = first + n / 2) by reflexivity. clearbody middle.
    rewrite IH; [|split; lia|lia|apply LG; lia|lia|intros a b Ha Hab Hb; apply S; lia]. cbn [bind].
    rewrite IH; [|split; lia|lia|apply LG; lia|lia|intros a b Ha Hab Hb; apply S; lia]. cbn [bind].
    apply wp_det. eapply wp_mono; [apply (merge_step (Datatypes.S r) d k m first middle last V); [lia| | |lia|exact Hd|lia]|].
    - intros a b Ha Hab Hb; apply S; lia.
    - intros a b Ha Hab Hb; apply S; lia.
    - intros m' [ST S']. now apply (sorted_st_same m m' first last).
  Qed.
  End D.

  (** ** Without default value *)
  Lemma stable_sort_partial_lemma r d k m first last : valid m first last ->
    last - first < r -> Nat.log2 (last - first) + 2 <= d -> last - first < k ->
    (forall m', stable_sort comp r d k m first last = Ok m' ->
       exists out, stable_sort_of comp (slice m first last) out /\ rearranged m first last m' /\ m' = paste m first out) /\
    (sorted_range comp m first last -> stable_sort comp r d k m first last = Ok m) /\
    (last - first < 15 ->
      ((exists m', stable_sort comp r d k m first last = Ok m') <->
       forall i, first <= i < last -> ~ rel comp m i m first)).
  Proof.
    intros V Hr Hd Hk. pose proof V as [V1 V2]. destruct m as [|d0 m0].
    - cbn in V2. assert (first = 0) as -> by lia. assert (last = 0) as -> by lia. destruct r; [lia|].
      assert (E : stable_sort comp (S r) d k [] 0 0 = Ok []) by reflexivity. rewrite E. split; [|split].
      + intros m' Em. injection Em as <-. exists []. split; [split; [intros i; cbn; lia|reflexivity]|]. split; [now apply rearranged_refl|reflexivity].
      + reflexivity.
      + intros _. split; [intros; lia|eauto].
    - set (m := d0 :: m0) in *. clearbody m. split; [|split].
      + intros m' E. destruct (stable_sort_wl d0 d k r m first last V Hr Hd Hk m' E) as [[R C] S]. pose proof R as [L RR].
        assert (V' : valid m' first last) by (split; lia).
        exists (slice m' first last). split; [split|split].
        * apply (sorted_list_iff comp W). apply (sorted_range_slice comp W); [exact V'|]. now apply (sorted_in_range comp W d0).
        * exact C.
        * exact RR.
        * apply rearranged_iff in RR; [|exact V]. destruct RR as (_ & O & _).
          apply list_ext. intros i. pose proof (slice_length m' first last) as SL. destruct (Nat.lt_ge_cases i first); [|destruct (Nat.lt_ge_cases i last)].
          -- rewrite nth_paste_out; rewrite ?slice_length by lia; try lia. apply O. lia.
          -- rewrite nth_paste_in; rewrite ?slice_length by lia; try lia. rewrite nth_error_slice by lia. f_equal. lia.
          -- rewrite nth_paste_out; rewrite ?slice_length by lia; try lia. apply O. lia.
      + intros S. apply (stable_sort_sorted d0); auto. now apply (sorted_in_range comp W d0).
      + intros H15. destruct r as [|r]; [lia|]. cbn [stable_sort]. destruct (Nat.ltb_spec (last - first) 15) as [_|]; [|lia]. split.
        * intros [m' E] i Hi. destruct (insertion_sort_wl d0 k m first last V ltac:(lia) m' E) as (_ & _ & H).
          apply (nrel_v d0); [lia|lia|]. now apply H.
        * intros H. destruct (wp_out _ _ (insertion_sort_ok d0 k m first last V ltac:(lia)
            ltac:(intros q Hq; apply (nrel_v d0 comp m q m first); [lia|lia|now apply H]))) as (m' & E & _). eauto.
  Qed.
End P.

Lemma stable_sort_refuted_lemma : stable_sort Nat.ltb 9 9 9 [2;1] 0 2 = UB.
Proof. reflexivity. Qed.
