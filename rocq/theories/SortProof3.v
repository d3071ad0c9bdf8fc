(** nth_element, and the statements without default value. *)
From Coq Require Import List Arith NArith Bool Lia Permutation ZArith.
From Verif Require Import Base BaseProof SearchSpec SearchProof OrderSpec OrderModel OrderProof OrderProof3 ListFacts
  MutModel MutSpec MutProof MutProof3 SortModel ValFacts SortProof SortProof2.
Import ListNotations.

Section P.
  Context {A : Type}.
  Variable comp : A -> A -> bool.
  Hypothesis W : strict_weak_order comp.

  Section D.
  Variable d0 : A.
  Implicit Types (m : list A) (first last i j k p : nat).
  Notation v := (v d0).
  Notation rr := (@rr A).
  Notation le := (le comp).
  Notation sorted_in := (sorted_in comp d0).
  Notation pivoted := (pivoted comp d0).
  Notation le_refl := (le_refl comp W).
  Notation le_trans := (le_trans comp W).

  Lemma sorted_pivoted m first i last : sorted_in m first last -> first <= i < last -> pivoted m first i last.
  Proof. intros S Hi. split; intros q Hq; apply S; lia. Qed.

  Lemma selection_sort_ok c d k m first last : valid m first last -> first < last -> depth_bound (last - first) <= d -> last - first <= k ->
    wp (selection_sort comp c d k m first last) (fun m' => rr first last m m' /\ sorted_in m' first last).
  Proof.
    intros V Hl Hd Hk. pose proof V as [V1 V2]. unfold selection_sort. apply wp_bind, wp_dec; [lia|].
    apply (wp_iter (fun '((m', f) : list A * nat) => rr first last m m' /\ first <= f <= last - 1 /\
        forall a b, first <= a < f -> a < b < last -> le (v m' a) (v m' b)) (fun '((m', f) : list A * nat) => last - 1 - f)).
    - intros [m' f] (R & Hf & H). pose proof R as [L RR].
      destruct (Nat.eqb_spec f (last - 1)) as [->|N].
      { cbn [wp]. split; [exact R|]. intros a b Ha Hab Hb. apply H; lia. }
      destruct (min_element_correct_lemma comp W c d m' f last) as (i & Ei & _ & Hi); [split; lia|eapply Nat.le_trans; [apply depth_mono|exact Hd]; lia|].
      rewrite Ei. cbn [bind]. destruct (Hi ltac:(lia)) as (Hi1 & Hi2 & _).
      assert (MIN : forall q, f <= q < last -> le (v m' i) (v m' q)).
      { intros q Hq. apply (nrel_v d0 comp m' q m' i); [lia|lia|]. now apply Hi2. }
      destruct (Nat.eqb_spec i f) as [->|Ni]; cbn [negb].
      + cbn [wp]. split; [|lia]. split; [exact R|]. split; [lia|]. intros a b Ha Hb.
        destruct (Nat.eq_dec a f) as [->|]; [apply MIN; lia|apply H; lia].
      + apply wp_bind, (wp_swp d0); [lia|lia|]. intros m1 L1 E1 E2 E3 R1. cbn [wp].
        split; [|lia]. split; [eapply rr_trans; [exact V|exact R|apply R1; lia]|]. split; [lia|].
        assert (VF : valid m' f last) by (split; lia).
        assert (RF : rr f last m' m1) by (apply R1; lia).
        intros a b Ha Hb. destruct (Nat.eq_dec a f) as [->|].
        * rewrite E1. apply (rearranged_forall d0 (fun y => le (v m' i) y) m' f last m1 VF (proj2 RF)); [exact MIN|lia].
        * rewrite (E3 a) by lia. destruct (Nat.lt_ge_cases b f).
          -- rewrite E3 by lia. apply H; lia.
          -- apply (rearranged_forall d0 (fun y => le (v m' a) y) m' f last m1 VF (proj2 RF)); [|lia]. intros q Hq. apply H; lia.
    - split; [now apply rr_refl|]. split; [lia|]. intros; lia.
    - lia.
  Qed.

  Lemma check_sorted_ok k m first last : last <= length m -> first < last -> last - first <= k ->
    wp (check_sorted comp k m first last) (fun b => b = true -> sorted_in m first last).
  Proof.
    intros V Hl Hk. unfold check_sorted.
    apply (wp_iter (fun '((j, p) : nat * nat) => first <= j < last /\ p = j /\ sorted_in m first (S j)) (fun '((j, p) : nat * nat) => last - j - 1)).
    - intros [j p] (Hj & -> & S). cbv zeta. destruct (Nat.eqb_spec (Datatypes.S j) last) as [E|N].
      { cbn [wp]. intros _. now rewrite <- E. }
      apply wp_bind, (wp_cmp comp d0); [lia|lia|]. destruct (comp _ _) eqn:C; cbn [wp].
      + discriminate.
      + split; [|lia]. split; [lia|]. split; [reflexivity|]. apply (keep_step comp W d0); auto; [lia|].
        replace (Datatypes.S j - 1) with j by lia. exact C.
    - split; [lia|]. split; [reflexivity|]. intros a b. lia.
    - lia.
  Qed.

  Lemma nth_element_ok d k m first nth last : valid m first last -> first <= nth < last -> last - first < k ->
    depth_bound (last - first) <= d ->
    wp (nth_element comp d k m first nth last) (fun m' => rr first last m m' /\ pivoted m' first nth last).
  Proof.
    intros V Hn Hk Hd. pose proof V as [V1 V2]. unfold nth_element.
    apply (wp_iter (fun '((m', f, l) : list A * nat * nat) => rr first last m m' /\ first <= f <= nth /\ nth < l <= last /\
        forall m2, rr f l m' m2 -> pivoted m2 f nth l -> pivoted m2 first nth last)
      (fun '((m', f, l) : list A * nat * nat) => l - f)).
    - intros [[m' f] l] (R & Hf & Hl & RED). pose proof (rr_valid _ _ _ _ first last R V) as [_ VL].
      assert (V' : valid m' f l) by (split; lia).
      assert (FIN : forall m2, rr f l m' m2 -> pivoted m2 f nth l -> rr first last m m2 /\ pivoted m2 first nth last).
      { intros m2 R2 P2. split; [|now apply RED]. eapply rr_trans; [exact V|exact R|]. apply (rr_wider f l); [split; lia|lia|lia|lia|exact R2]. }
      destruct (Nat.eqb_spec nth l) as [|_]; [lia|]. cbv zeta.
      assert (BIG : 3 < l - f -> wp
         (if l - f <=? 7 then m <- selection_sort comp true d k m' f l ;; Ok (inr m)
            else
              lm1 <- dec l ;;
              s <- sort3 comp m' f (f + (l - f) / 2) lm1 ;;
              let '(m, n) := s in
              s <- split comp false k m (f + (l - f) / 2) f l n ;;
              let '(m, o) := s in
              match o with
              | inl None => Ok (inr m)
              | inl (Some i) => if nth <? i then Ok (inr m) else Ok (inl (m, i, l))
              | inr (i, n) =>
                  if nth =? i then Ok (inr m)
                  else
                    done <- (if N.eqb n 0 then
                               if nth <? i then check_sorted comp k m f i else check_sorted comp k m i l
                             else Ok false) ;;
                    if done then Ok (inr m)
                    else if nth <? i then Ok (inl (m, f, i))
                    else Ok (inl (m, S i, l))
              end)
         (fun x => match x with
          | inl s' => (let '(m'0, f0, l0) := s' in rr first last m m'0 /\ first <= f0 <= nth /\ nth < l0 <= last /\
               forall m2, rr f0 l0 m'0 m2 -> pivoted m2 f0 nth l0 -> pivoted m2 first nth last) /\
              (let '(_, f0, l0) := s' in l0 - f0) < l - f
          | inr m'0 => rr first last m m'0 /\ pivoted m'0 first nth last
          end)).
      { intros HB. destruct (Nat.leb_spec (l - f) 7).
        - apply wp_bind. eapply wp_mono; [apply selection_sort_ok; [exact V'|lia| |lia]|].
          + eapply Nat.le_trans; [apply depth_mono|exact Hd]. lia.
          + intros m1 [R1 S1]. cbn [wp]. apply FIN; [exact R1|]. apply sorted_pivoted; [exact S1|lia].
        - set (p := f + (l - f) / 2).
          assert (Hp : f < p < l - 1).
          { unfold p. pose proof (Nat.div_mod (l - f) 2 ltac:(lia)). pose proof (Nat.mod_upper_bound (l - f) 2 ltac:(lia)). lia. }
          apply wp_bind, wp_dec; [lia|]. apply wp_bind.
          eapply wp_mono; [apply (sort3_ok comp W d0 m' f l f p (l - 1)); [exact V'|repeat split; lia]|].
          intros [m1 n] (R1 & O1 & O2 & _). pose proof (rr_valid _ _ _ _ f l R1 V') as VV1.
          apply wp_bind. eapply wp_mono; [apply (split_ok comp W d0 false k m1 p f l); [exact VV1|lia|lia|lia|exact O1|exact O2]|].
          intros [m2 o] (R2' & H2). pose proof (rr_trans _ _ _ _ _ V' R1 R2') as R2. clear R2'.
          assert (R2g : rr first last m m2).
          { eapply rr_trans; [exact V|exact R|]. apply (rr_wider f l); [split; lia|lia|lia|lia|exact R2]. }
          pose proof R2 as [L2 _].
          assert (TAIL : forall m3 a b, f <= a <= b -> b <= l -> rr a b m2 m3 -> rr f l m' m3).
          { intros m3 a b Hab Hb R3. eapply rr_trans; [exact V'|exact R2|]. apply (rr_wider a b); [split; lia|lia|lia|lia|exact R3]. }
          destruct o as [[i|]|[i n2]].
          + destruct H2 as [Hi H2]. destruct (Nat.ltb_spec nth i); cbn [wp].
            * apply FIN; [exact R2|]. split; intros q Hq; apply H2; lia.
            * split; [|lia]. split; [exact R2g|]. split; [lia|]. split; [lia|]. intros m3 R3 [P1 P2]. apply RED; [apply (TAIL m3 i l); auto; lia|].
              assert (V3 : valid m2 i l) by (split; lia).
              split; [|exact P2]. intros q Hq. destruct (Nat.lt_ge_cases q i); [|apply P1; lia].
              rewrite (rr_out d0 i l m2 m3 q) by (auto; lia).
              apply (rearranged_forall d0 (fun y => le (v m2 q) y) m2 i l m3 V3 (proj2 R3)); [|lia]. intros q' Hq'. apply H2; lia.
          + cbn [wp]. apply FIN; [exact R2|]. apply sorted_pivoted; [exact H2|lia].
          + destruct H2 as [Hi P]. destruct (Nat.eqb_spec nth i) as [->|Ni].
            { cbn [wp]. now apply FIN. }
            apply wp_bind.
            apply (wp_mono _ (fun b => b = true -> pivoted m2 f nth l)).
            * destruct (N.eqb n2 0); [|cbn [wp]; discriminate]. pose proof P as [P1 P2]. destruct (Nat.ltb_spec nth i).
              -- eapply wp_mono; [apply check_sorted_ok; [lia|lia|lia]|]. intros b S E. specialize (S E).
                 split; intros q Hq; [apply S; lia|]. destruct (Nat.lt_trichotomy q i) as [C|[->|C]].
                 ++ apply S; lia.
                 ++ apply P1; lia.
                 ++ apply (le_trans _ (v m2 i)); [apply P1|apply P2]; lia.
              -- eapply wp_mono; [apply check_sorted_ok; [lia|lia|lia]|]. intros b S E. specialize (S E).
                 split; intros q Hq; [|apply S; lia]. destruct (Nat.lt_trichotomy q i) as [C|[->|C]].
                 ++ apply (le_trans _ (v m2 i)); [apply P1|apply P2]; lia.
                 ++ apply P2; lia.
                 ++ apply S; lia.
            * intros b Hb. destruct b; [cbn [wp]; apply FIN; auto|].
              destruct (Nat.ltb_spec nth i); cbn [wp].
              -- split; [|lia]. split; [exact R2g|]. split; [lia|]. split; [lia|]. intros m3 R3 P3. apply RED; [apply (TAIL m3 f i); auto; lia|].
                 pose proof (pivoted_rr comp d0 m2 m3 f i l f i ltac:(split; lia) ltac:(lia) P R3 ltac:(lia)) as [Q1 Q2].
                 destruct P3 as [P31 P32]. split; [exact P31|]. intros q Hq. destruct (Nat.lt_trichotomy q i) as [C|[->|C]].
                 ++ apply P32; lia.
                 ++ apply Q1; lia.
                 ++ apply (le_trans _ (v m3 i)); [apply Q1|apply Q2]; lia.
              -- split; [|lia]. split; [exact R2g|]. split; [lia|]. split; [lia|]. intros m3 R3 P3. apply RED; [apply (TAIL m3 (S i) l); auto; lia|].
                 pose proof (pivoted_rr comp d0 m2 m3 f i l (S i) l ltac:(split; lia) ltac:(lia) P R3 ltac:(lia)) as [Q1 Q2].
                 destruct P3 as [P31 P32]. split; [|exact P32]. intros q Hq. destruct (Nat.lt_trichotomy q i) as [C|[->|C]].
                 ++ apply (le_trans _ (v m3 i)); [apply Q1|apply Q2]; lia.
                 ++ apply Q2; lia.
                 ++ apply P31; lia. }
      destruct (l - f) as [|[|[|[|n]]]] eqn:EL; [| | | |apply BIG; lia].
      + lia.
      + cbn [wp]. apply FIN; [now apply rr_refl|]. split; intros; lia.
      + apply wp_bind, wp_dec; [lia|]. apply wp_bind, (wp_cmp comp d0); [lia|lia|]. destruct (comp _ _) eqn:C.
        * apply wp_bind, (wp_swp d0); [lia|lia|]. intros m1 L1 E1 E2 E3 R1. cbn [wp]. apply FIN; [apply R1; lia|].
          apply sorted_pivoted; [|lia]. intros a b Ha Hab Hb. assert (a = f) by lia. assert (b = l - 1) by lia. subst a b.
          rewrite E1, E2. now apply (lt_le comp W).
        * cbn [wp]. apply FIN; [now apply rr_refl|]. apply sorted_pivoted; [|lia].
          intros a b Ha Hab Hb. assert (a = f) by lia. assert (b = l - 1) by lia. now subst a b.
      + apply wp_bind, wp_dec; [lia|]. apply wp_bind.
        eapply wp_mono; [apply (sort3_ok comp W d0 m' f l f (S f) (l - 1)); [exact V'|repeat split; lia]|].
        intros [m1 n] (R1 & O1 & O2 & _). cbn [wp fst]. apply FIN; [exact R1|]. apply sorted_pivoted; [|lia].
        apply (sorted_in_step comp W d0). intros a Ha Hb. assert (D : a = f \/ a = S f) by lia. destruct D as [-> | ->]; [exact O1|].
        now replace (S (S f)) with (l - 1) by lia.
    - split; [now apply rr_refl|]. split; [lia|]. split; [lia|]. auto.
    - exact Hk.
  Qed.
  End D.

  (** ** The order statistic is determined *)
  Lemma filter_perm_length {B} (f : B -> bool) (l1 l2 : list B) : Permutation l1 l2 -> length (filter f l1) = length (filter f l2).
  Proof.
    induction 1; cbn [filter]; auto; [destruct (f x); cbn [length]; lia|destruct (f y), (f x); reflexivity|lia].
  Qed.

  Lemma filter_slice_bound (f : A -> bool) m a b : length (filter f (slice m a b)) <= b - a.
  Proof.
    assert (F : forall l : list A, length (filter f l) <= length l) by (induction l as [|x l IH]; cbn; [lia|destruct (f x); cbn; lia]).
    eapply Nat.le_trans; [apply F|]. unfold slice. rewrite firstn_length. lia.
  Qed.

  Lemma filter_all_slice (f : A -> bool) m a b : valid m a b -> (forall i x, a <= i < b -> nth_error m i = Some x -> f x = true) ->
    length (filter f (slice m a b)) = b - a.
  Proof.
    intros [V1 V2] H. rewrite <- (slice_length m a b) by lia. f_equal.
    assert (G : forall l : list A, (forall x, In x l -> f x = true) -> filter f l = l).
    { induction l as [|x l IH]; cbn; auto. intros Hx. rewrite Hx by auto. f_equal. apply IH. intros y Hy. apply Hx. auto. }
    apply G. intros x Hx. apply in_slice in Hx. destruct Hx as (i & Hi & Ex). eauto.
  Qed.

  Lemma filter_none_slice (f : A -> bool) m a b : (forall i x, a <= i < b -> nth_error m i = Some x -> f x = false) ->
    length (filter f (slice m a b)) = 0.
  Proof.
    intros H. assert (G : forall l : list A, (forall x, In x l -> f x = false) -> filter f l = []).
    { induction l as [|x l IH]; cbn; auto. intros Hx. rewrite Hx by auto. apply IH. intros y Hy. apply Hx. auto. }
    rewrite G; [reflexivity|]. intros x Hx. apply in_slice in Hx. destruct Hx as (i & Hi & Ex). eauto.
  Qed.

  (** Two rearrangements with a pivot at [n] have equivalent elements there *)
  Lemma pivot_unique d0 m1 m2 first n last : valid m1 first last -> rr first last m1 m2 -> first <= n < last ->
    pivoted comp d0 m1 first n last -> pivoted comp d0 m2 first n last -> comp (v d0 m1 n) (v d0 m2 n) = false.
  Proof.
    intros V [L R] Hn [P1 P2] [Q1 Q2]. pose proof V as [V1 V2]. destruct (comp (v d0 m1 n) (v d0 m2 n)) eqn:C; [exfalso|reflexivity].
    apply rearranged_iff in R; [|exact V]. destruct R as (_ & _ & HP).
    set (f := fun y => comp y (v d0 m2 n)).
    pose proof (filter_perm_length f _ _ HP) as F.
    rewrite (slice_app m1 first (S n) last), (slice_app m2 first n last) in F by lia.
    rewrite !filter_app, !app_length in F.
    rewrite (filter_all_slice f m1 first (S n)) in F.
    - rewrite (filter_none_slice f m2 n last) in F.
      + pose proof (filter_slice_bound f m2 first n). lia.
      + intros i x Hi Hx. apply (v_nth_error d0) in Hx. subst x. unfold f.
        destruct (Nat.eq_dec i n) as [->|]; [apply (swo_irr comp W)|]. apply Q2. lia.
    - split; lia.
    - intros i x Hi Hx. apply (v_nth_error d0) in Hx. subst x. unfold f.
      destruct (Nat.eq_dec i n) as [->|]; [exact C|].
      apply (le_lt_trans comp W _ (v d0 m1 n)); [apply P1; lia|exact C].
  Qed.

  (** ** Without default value *)
  Lemma sort_correct_lemma limit r k m first last : valid m first last -> last - first < k -> Nat.log2 (last - first) < r ->
    exists m', sort comp limit r k m first last = Ok m' /\ rearranged m first last m' /\ sorted_range comp m' first last.
  Proof.
    intros V Hk Hr. pose proof V as [V1 V2]. destruct m as [|d0 m0].
    - cbn in V2. assert (first = 0) as -> by lia. assert (last = 0) as -> by lia. exists [].
      destruct r; [lia|]. destruct k; [lia|]. split; [reflexivity|]. split; [apply rearranged_refl; exact V|]. intros i. lia.
    - set (m := d0 :: m0) in *. clearbody m. apply wp_out.
      assert (last - first < 2 ^ r).
      { destruct (Nat.eq_dec (last - first) 0) as [->|]; [apply Nat.neq_0_lt_0, Nat.pow_nonzero; lia|].
        apply Nat.log2_lt_pow2; lia. }
      eapply wp_mono; [apply (sort_ok comp W d0 limit r k m first last V Hk); lia|].
      intros m' [R S]. split; [apply R|]. apply (sorted_in_range comp W d0); [|exact S]. eapply rr_valid; eauto.
  Qed.

  Lemma nth_element_correct_lemma d k m first nth last : valid m first last -> first <= nth <= last -> last - first < k ->
    depth_bound (last - first) <= d ->
    exists m', nth_element comp d k m first nth last = Ok m' /\ rearranged m first last m' /\
      (nth = last -> m' = m) /\
      (nth < last ->
        (forall i, first <= i < nth -> ~ rel comp m' nth m' i) /\
        (forall j, nth < j < last -> ~ rel comp m' j m' nth) /\
        (forall s, rearranged m first last s -> sorted_range comp s first last ->
           exists x y, nth_error m' nth = Some x /\ nth_error s nth = Some y /\ equivalent comp x y)).
  Proof.
    intros V Hn Hk Hd. pose proof V as [V1 V2]. destruct (Nat.eq_dec nth last) as [->|N].
    - exists m. unfold nth_element. destruct k; [lia|]. cbn [iter]. rewrite Nat.eqb_refl. cbn [bind].
      split; [reflexivity|]. split; [now apply rearranged_refl|]. split; [auto|lia].
    - destruct m as [|d0 m0]; [cbn in V2; lia|]. set (m := d0 :: m0) in *. clearbody m. apply wp_out.
      eapply wp_mono; [apply (nth_element_ok d0 d k m first nth last V); auto; lia|].
      intros m' [R [P1 P2]]. pose proof R as [L RR]. split; [exact RR|]. split; [lia|]. intros _. split; [|split].
      + intros i Hi. apply (nrel_v d0); [lia|lia|]. now apply P1.
      + intros j Hj. apply (nrel_v d0); [lia|lia|]. now apply P2.
      + intros s RS S. pose proof (rearranged_length _ _ _ _ V RS) as LS.
        assert (S' : sorted_in comp d0 s first last) by (apply (sorted_in_range comp W d0); [split; lia|exact S]).
        apply (sorted_pivoted d0 _ _ nth) in S'; [|lia].
        exists (v d0 m' nth), (v d0 s nth). split; [apply nth_error_v; lia|]. split; [apply nth_error_v; lia|].
        assert (V' : valid m' first last) by (split; lia). assert (VS : valid s first last) by (split; lia).
        assert (R1 : rr first last m' s).
        { split; [lia|]. eapply rearranged_trans; [exact V'|apply rearranged_sym; [exact V|exact RR]|exact RS]. }
        assert (R2 : rr first last s m').
        { split; [lia|]. apply rearranged_sym; [exact V'|apply R1]. }
        split.
        * apply (pivot_unique d0 m' s first nth last V' R1); auto; [lia|now split].
        * apply (pivot_unique d0 s m' first nth last VS R2); auto; [lia|now split].
  Qed.
End P.
