(** Lexicographic order on rearrangements. *)
From Coq Require Import List Arith Bool Lia Permutation.
From Verif Require Import SearchSpec OrderSpec OrderProof SetSpec SetProof SortSpec.
Import ListNotations.

  Lemma filter_mono {B} (f g : B -> bool) (l : list B) : (forall x : B, In x l -> f x = true -> g x = true) ->
    length (filter f l) <= length (filter g l).
  Proof.
    induction l as [|x l IH]; intros H; cbn; [lia|]. specialize (IH (fun y Hy => H y (or_intror Hy))).
    pose proof (H x (or_introl eq_refl)) as Hx. destruct (f x); [rewrite Hx by reflexivity; cbn; lia|]. destruct (g x); cbn; lia.
  Qed.
  Lemma filter_strict {B} (f g : B -> bool) (l : list B) (x : B) : (forall x : B, In x l -> f x = true -> g x = true) ->
    In x l -> f x = false -> g x = true -> length (filter f l) < length (filter g l).
  Proof.
    induction l as [|y l IH]; intros H I Hf Hg; [easy|]. destruct I as [->|I].
    - cbn. rewrite Hf, Hg. cbn. pose proof (filter_mono f g l (fun y Hy => H y (or_intror Hy))). lia.
    - cbn. specialize (IH (fun y Hy => H y (or_intror Hy)) I Hf Hg).
      pose proof (H y (or_introl eq_refl)) as Hy. destruct (f y); [rewrite Hy by reflexivity; cbn; lia|]. destruct (g y); cbn; lia.
  Qed.

Section L.
  Context {A : Type}.
  Variable comp : A -> A -> bool.
  Hypothesis W : strict_weak_order comp.
  Implicit Types (a b c xs ys zs : list A) (x y z : A).
  Notation lt x y := (comp x y = true).
  Notation eqv := (equivalent comp).

  Lemma eqv_refl x : eqv x x.
  Proof. split; apply (swo_irr comp W). Qed.
  Lemma eqv_sym x y : eqv x y -> eqv y x.
  Proof. intros [H1 H2]. now split. Qed.
  Lemma eqv_trans x y z : eqv x y -> eqv y z -> eqv x z.
  Proof. destruct W as (_ & _ & T). apply T. Qed.
  Lemma lt_trans x y z : lt x y -> lt y z -> lt x z.
  Proof. apply (swo_trans comp W). Qed.
  Lemma lt_eqv x y z : lt x y -> eqv y z -> lt x z.
  Proof.
    intros H [H1 H2]. destruct (comp x z) eqn:E; [reflexivity|]. pose proof (swo_neg comp W x z y E H2). congruence.
  Qed.
  Lemma eqv_lt x y z : eqv x y -> lt y z -> lt x z.
  Proof.
    intros [H1 H2] H. destruct (comp x z) eqn:E; [reflexivity|]. pose proof (swo_neg comp W y x z H2 E). congruence.
  Qed.
  Lemma lt_not_eqv x y : lt x y -> ~ eqv x y.
  Proof. intros H [H1 _]. congruence. Qed.
  Lemma lt_asym x y : lt x y -> ~ lt y x.
  Proof. intros H H'. pose proof (swo_asym comp W x y H). congruence. Qed.
  Lemma tri x y : lt x y \/ eqv x y \/ lt y x.
  Proof. unfold equivalent. destruct (comp x y) eqn:E1, (comp y x) eqn:E2; auto. Qed.

  (** ** alike *)
  Lemma alike_refl a : alike comp a a.
  Proof. induction a; constructor; auto using eqv_refl. Qed.
  Lemma alike_sym a b : alike comp a b -> alike comp b a.
  Proof. induction 1; constructor; auto using eqv_sym. Qed.
  Lemma alike_length a b : alike comp a b -> length a = length b.
  Proof. induction 1; cbn; auto. Qed.
  Lemma alike_trans a b c : alike comp a b -> alike comp b c -> alike comp a c.
  Proof.
    intros H. revert c. induction H; intros c Hc; inversion Hc; subst; constructor; eauto using eqv_trans. apply IHForall2. assumption.
  Qed.

  (** ** before *)
  Lemma before_trans : forall a b c, before comp a b -> before comp b c -> before comp a c.
  Proof.
    induction a as [|x a IH]; intros [|y b] [|z c]; cbn; try tauto.
    intros [H1|[H1 H1']] [H2|[H2 H2']].
    - left. eapply lt_trans; eauto.
    - left. eapply lt_eqv; eauto.
    - left. eapply eqv_lt; eauto.
    - right. split; [eapply eqv_trans; eauto|]. eapply IH; eauto.
  Qed.
  Lemma before_irr : forall a b, alike comp a b -> ~ before comp a b.
  Proof.
    induction 1 as [|x y a b H HF IH]; cbn; [tauto|]. intros [H1|[_ H1]]; [now apply (lt_not_eqv x y)|auto].
  Qed.
  Lemma before_asym a b : before comp a b -> ~ before comp b a.
  Proof. intros H1 H2. apply (before_irr a a (alike_refl a)). eapply before_trans; eauto. Qed.
  Lemma before_tri : forall a b, length a = length b -> before comp a b \/ alike comp a b \/ before comp b a.
  Proof.
    induction a as [|x a IH]; intros [|y b] L; cbn in *; try discriminate; [right; left; constructor|].
    destruct (tri x y) as [T|[T|T]]; [auto| |auto].
    destruct (IH b ltac:(lia)) as [H|[H|H]]; [auto| |].
    - right. left. now constructor.
    - right. right. right. split; [now apply eqv_sym|exact H].
  Qed.
  Lemma before_alike_r : forall a b c, before comp a b -> alike comp b c -> before comp a c.
  Proof.
    induction a as [|x a IH]; intros [|y b] c H HA; cbn in H; try tauto. inversion HA; subst. cbn.
    destruct H as [H|[H H']]; [left; eapply lt_eqv; eauto|right]. split; [eapply eqv_trans; eauto|eapply IH; eauto].
  Qed.
  Lemma before_alike_l : forall a b c, alike comp a b -> before comp b c -> before comp a c.
  Proof.
    induction a as [|x a IH]; intros b c HA H; inversion HA; subst; cbn in H; [tauto|]. destruct c as [|z c]; [tauto|]. cbn.
    destruct H as [H|[H H']]; [left; eapply eqv_lt; eauto|right]. split; [eapply eqv_trans; eauto|eapply IH; eauto].
  Qed.
  Lemma before_app_l p a b : before comp a b -> before comp (p ++ a) (p ++ b).
  Proof. induction p as [|x p IH]; cbn; auto using eqv_refl. Qed.

  (** a list between two lists with a common prefix *)
  Lemma between_prefix : forall p a b zs, before comp (p ++ a) zs -> before comp zs (p ++ b) ->
    exists p' c, zs = p' ++ c /\ alike comp p p' /\ before comp a c /\ before comp c b.
  Proof.
    induction p as [|x p IH]; intros a b zs H1 H2.
    - exists [], zs. repeat split; auto. constructor.
    - destruct zs as [|z zs]; [cbn in H1; tauto|]. cbn in H1, H2.
      destruct H1 as [H1|[E1 H1]].
      + exfalso. destruct H2 as [H2|[E2 H2]]; [now apply (lt_asym x z)|now apply (lt_not_eqv x z H1), eqv_sym].
      + destruct H2 as [H2|[E2 H2]]; [exfalso; now apply (lt_not_eqv z x H2), eqv_sym|].
        destruct (IH a b zs H1 H2) as (p' & c & -> & HA & Hc1 & Hc2). exists (z :: p'), c.
        repeat split; auto. now constructor.
  Qed.

  (** ** The same elements up to equivalence *)
  Definition cnt z xs := length (class comp z xs).
  Definition same_cnt xs ys := forall z, cnt z xs = cnt z ys.

  Lemma cnt_cons z x xs : cnt z (x :: xs) = (if equiv_to comp z x then 1 else 0) + cnt z xs.
  Proof. unfold cnt. rewrite class_cons. destruct (equiv_to comp z x); reflexivity. Qed.
  Lemma cnt_app z xs ys : cnt z (xs ++ ys) = cnt z xs + cnt z ys.
  Proof. unfold cnt. now rewrite class_app, app_length. Qed.
  Lemma eqv_iff z x : equiv_to comp z x = true <-> eqv z x.
  Proof. rewrite equiv_iff. unfold equivalent. tauto. Qed.
  Lemma cnt_eqv x y z : eqv x y -> equiv_to comp z x = equiv_to comp z y.
  Proof.
    intros H. destruct (equiv_to comp z x) eqn:E1, (equiv_to comp z y) eqn:E2; auto.
    - apply eqv_iff in E1. assert (E : eqv z y) by eauto using eqv_trans. apply eqv_iff in E. congruence.
    - apply eqv_iff in E2. assert (E : eqv z x) by eauto using eqv_trans, eqv_sym. apply eqv_iff in E. congruence.
  Qed.
  Lemma cnt_in z xs : 0 < cnt z xs -> exists x, In x xs /\ eqv z x.
  Proof.
    induction xs as [|x xs IH]; [cbn; lia|]. rewrite cnt_cons. destruct (equiv_to comp z x) eqn:E.
    - intros _. exists x. split; [now left|now apply eqv_iff].
    - intros H. destruct (IH H) as (y & Hy & E'). exists y. split; [now right|exact E'].
  Qed.
  Lemma in_cnt z xs : In z xs -> 0 < cnt z xs.
  Proof.
    induction xs as [|x xs IH]; [easy|]. rewrite cnt_cons. intros [->|H].
    - assert (E : equiv_to comp z z = true) by (apply eqv_iff, eqv_refl). rewrite E. lia.
    - specialize (IH H). lia.
  Qed.
  Lemma perm_cnt xs ys : Permutation xs ys -> same_cnt xs ys.
  Proof.
    intros H z. induction H; rewrite ?cnt_cons; auto; try lia; congruence.
  Qed.
  Lemma alike_cnt xs ys : alike comp xs ys -> same_cnt xs ys.
  Proof. intros H z. induction H; auto. rewrite !cnt_cons, (cnt_eqv x y z) by assumption. lia. Qed.
  Lemma same_cnt_tail x y xs ys : eqv x y -> same_cnt (x :: xs) (y :: ys) -> same_cnt xs ys.
  Proof. intros E H z. specialize (H z). rewrite !cnt_cons, (cnt_eqv x y z E) in H. lia. Qed.
  Lemma same_cnt_in x xs ys : same_cnt xs ys -> In x ys -> exists y, In y xs /\ eqv x y.
  Proof. intros H Hx. apply cnt_in. rewrite (H x). now apply in_cnt. Qed.

  (** weakly descending / ascending *)
  Fixpoint desc xs : Prop := match xs with [] => True | x :: xs => (forall y, In y xs -> comp x y = false) /\ desc xs end.
  Fixpoint asc xs : Prop := match xs with [] => True | x :: xs => (forall y, In y xs -> comp y x = false) /\ asc xs end.

  Lemma desc_last : forall xs ys, desc xs -> same_cnt xs ys -> ~ before comp xs ys.
  Proof.
    induction xs as [|x xs IH]; intros [|y ys]; cbn [before]; try tauto. intros [D1 D2] C [H|[E H]].
    - destruct (same_cnt_in y _ _ C ltac:(now left)) as (w & [<-|Hw] & E).
      + now apply (lt_not_eqv x y H), eqv_sym.
      + assert (lt x w) by (eapply lt_eqv; eauto). rewrite D1 in H0; [discriminate|exact Hw].
    - exact (IH ys D2 (same_cnt_tail _ _ _ _ E C) H).
  Qed.
  Lemma asc_first : forall xs ys, asc xs -> same_cnt xs ys -> ~ before comp ys xs.
  Proof.
    induction xs as [|x xs IH]; intros [|y ys]; cbn [before]; try tauto. intros [D1 D2] C [H|[E H]].
    - destruct (same_cnt_in y _ _ C ltac:(now left)) as (w & [<-|Hw] & E).
      + now apply (lt_not_eqv y x H).
      + assert (lt w x) by (eapply eqv_lt; [apply eqv_sym; exact E|exact H]). rewrite D1 in H0; [discriminate|exact Hw].
    - exact (IH ys D2 (same_cnt_tail _ _ _ _ (eqv_sym _ _ E) C) H).
  Qed.

  Lemma desc_app xs ys : desc (xs ++ ys) <-> desc xs /\ desc ys /\ forall x y, In x xs -> In y ys -> comp x y = false.
  Proof.
    induction xs as [|x xs IH]; cbn [app desc]; [firstorder|]. rewrite IH. split.
    - intros (H1 & H2 & H3 & H4). repeat split; auto.
      + intros y Hy. apply H1, in_or_app. auto.
      + intros x0 y [<-|Hx] Hy; [apply H1, in_or_app; auto|auto].
    - intros ((H1 & H2) & H3 & H4). repeat split; auto.
      + intros y Hy. apply in_app_or in Hy. destruct Hy; [auto|apply H4; auto; now left].
      + intros x0 y Hx Hy. apply H4; auto. now right.
  Qed.
  Lemma asc_app xs ys : asc (xs ++ ys) <-> asc xs /\ asc ys /\ forall x y, In x xs -> In y ys -> comp y x = false.
  Proof.
    induction xs as [|x xs IH]; cbn [app asc]; [firstorder|]. rewrite IH. split.
    - intros (H1 & H2 & H3 & H4). repeat split; auto.
      + intros y Hy. apply H1, in_or_app. auto.
      + intros x0 y [<-|Hx] Hy; [apply H1, in_or_app; auto|auto].
    - intros ((H1 & H2) & H3 & H4). repeat split; auto.
      + intros y Hy. apply in_app_or in Hy. destruct Hy; [auto|apply H4; auto; now left].
      + intros x0 y Hx Hy. apply H4; auto. now right.
  Qed.
  Lemma asc_rev xs : desc xs -> asc (rev xs).
  Proof.
    induction xs as [|x xs IH]; cbn [rev desc]; [auto|]. intros [H1 H2]. apply asc_app. split; [auto|]. split; [cbn; tauto|].
    intros a b Ha [<-|[]]. apply H1. now apply in_rev.
  Qed.

  (** ** The step of next_permutation *)
  Lemma next_of_step p x s1 y s2 : desc (s1 ++ y :: s2) -> lt x y -> (forall z, In z s2 -> comp x z = false) ->
    next_of comp (p ++ x :: s1 ++ y :: s2) (p ++ y :: rev (s1 ++ x :: s2)).
  Proof.
    intros D H1 H2. split; [|split].
    - apply Permutation_app_head. rewrite <- (Permutation_rev (s1 ++ x :: s2)).
      rewrite <- !Permutation_middle. apply perm_swap.
    - apply before_app_l. cbn. now left.
    - intros zs HP B1 B2. apply perm_cnt in HP.
      destruct (between_prefix _ _ _ _ B1 B2) as (p' & c & -> & HA & Bc1 & Bc2).
      assert (C : same_cnt (x :: s1 ++ y :: s2) c).
      { intros z. specialize (HP z). rewrite !cnt_app in HP. rewrite (alike_cnt p p' HA z) in HP. lia. }
      assert (DD : desc (s1 ++ y :: s2)) by exact D. apply desc_app in DD. destruct DD as (D1 & [D2 D3] & D4).
      destruct c as [|c0 c]; [cbn in Bc1; tauto|]. cbn [before] in Bc1, Bc2.
      destruct Bc1 as [Bc1|[E Bc1]].
      + destruct (same_cnt_in c0 _ _ C ltac:(now left)) as (w & Hw & Ew).
        destruct Bc2 as [Bc2|[E2 Bc2]].
        * assert (xw : lt x w) by (eapply lt_eqv; eauto). assert (wy : lt w y) by (eapply eqv_lt; [apply eqv_sym; exact Ew|exact Bc2]).
          destruct Hw as [<-|Hw]; [rewrite (swo_irr comp W) in xw; discriminate|].
          apply in_app_or in Hw. destruct Hw as [Hw|[<-|Hw]].
          -- rewrite (D4 w y Hw ltac:(now left)) in wy. discriminate.
          -- rewrite (swo_irr comp W) in wy. discriminate.
          -- rewrite (H2 w Hw) in xw. discriminate.
        * revert Bc2. apply asc_first.
          -- apply asc_rev. apply desc_app. split; [exact D1|]. split; [split; [exact H2|exact D3]|].
             intros a b Ha [<-|Hb]; [|apply D4; [exact Ha|now right]].
             destruct (comp a x) eqn:Eax; [|reflexivity]. pose proof (lt_trans _ _ _ Eax H1) as F. rewrite (D4 a y Ha ltac:(now left)) in F. discriminate.
          -- intros z. specialize (C z). rewrite cnt_cons, cnt_app, cnt_cons, cnt_cons in C. rewrite (cnt_eqv c0 y z E2) in C.
             rewrite (perm_cnt _ _ (Permutation_sym (Permutation_rev (s1 ++ x :: s2))) z). rewrite cnt_app, cnt_cons. lia.
      + exact (desc_last _ _ D (same_cnt_tail _ _ _ _ E C) Bc1).
  Qed.

  Lemma last_perm_desc xs : desc xs -> is_last_perm comp xs /\ is_first_perm comp (rev xs).
  Proof.
    intros D. split; intros zs HP.
    - apply desc_last; [exact D|now apply perm_cnt].
    - apply asc_first; [now apply asc_rev|now apply perm_cnt].
  Qed.

  (** ** All rearrangements are reached *)
  Lemma finite_perms : forall xs : list A, exists L, forall zs, Permutation xs zs -> In zs L.
  Proof.
    induction xs as [|x xs [L IH]].
    - exists [[]]. intros zs H. apply Permutation_nil in H. subst. now left.
    - exists (flat_map (fun ys => map (fun i => firstn i ys ++ x :: skipn i ys) (seq 0 (S (length ys)))) L).
      intros zs H. assert (I : In x zs) by (eapply Permutation_in; [exact H|now left]).
      apply in_split in I. destruct I as (l1 & l2 & ->). apply Permutation_cons_app_inv in H.
      apply in_flat_map. exists (l1 ++ l2). split; [now apply IH|]. apply in_map_iff. exists (length l1).
      split.
      + rewrite firstn_app, skipn_app, firstn_all, skipn_all, Nat.sub_diag. cbn [firstn skipn]. now rewrite app_nil_r.
      + apply in_seq. rewrite app_length. lia.
  Qed.

  Fixpoint beforeb a b : bool :=
    match a, b with
    | x :: a, y :: b => comp x y || (equiv_to comp x y && beforeb a b)
    | _, _ => false
    end.
  Lemma beforeb_iff : forall a b, beforeb a b = true <-> before comp a b.
  Proof.
    induction a as [|x a IH]; intros [|y b]; cbn [beforeb before]; try easy.
    rewrite orb_true_iff, andb_true_iff, eqv_iff, IH. reflexivity.
  Qed.

  Lemma reaches_all (step : list A -> list A -> Prop) xs zs :
    (forall ys, Permutation xs ys -> is_last_perm comp ys \/ exists ws, step ys ws /\ next_of comp ys ws) ->
    is_first_perm comp xs -> Permutation xs zs ->
    exists n ys, reaches step n xs ys /\ Permutation xs ys /\ alike comp ys zs.
  Proof.
    intros STEP F HP. destruct (finite_perms xs) as [L HL].
    set (mu := fun ys => length (filter (fun p => beforeb ys p) L)).
    assert (G : forall n ys, mu ys < n -> Permutation xs ys -> ~ before comp zs ys ->
              exists k ws, reaches step k ys ws /\ Permutation xs ws /\ alike comp ws zs).
    { induction n as [|n IH]; [lia|]. intros ys Hn HY NB.
      assert (LEN : length ys = length zs) by (rewrite <- (Permutation_length HY); now apply Permutation_length).
      destruct (before_tri ys zs LEN) as [B|[B|B]]; [| |tauto].
      - destruct (STEP ys HY) as [LA|(ws & S & N)].
        + exfalso. apply (LA zs); [|exact B]. eapply perm_trans; [apply Permutation_sym; exact HY|exact HP].
        + destruct N as (N1 & N2 & N3). assert (HW : Permutation xs ws) by (eapply perm_trans; eauto).
          assert (NB' : ~ before comp zs ws).
          { intros Q. apply (N3 zs); auto. eapply perm_trans; [apply Permutation_sym; exact HY|exact HP]. }
          destruct (IH ws) as (k & vs & R & P & Q); auto.
          * apply Nat.lt_le_trans with (mu ys); [|lia]. unfold mu. apply (filter_strict _ _ L ws).
            -- intros p _ Hp. apply beforeb_iff in Hp. apply beforeb_iff. eapply before_trans; eauto.
            -- now apply HL.
            -- destruct (beforeb ws ws) eqn:E; [|reflexivity]. apply beforeb_iff in E. now apply before_irr in E; [|apply alike_refl].
            -- now apply beforeb_iff.
          * exists (Datatypes.S k), vs. split; [exists ws; now split|]. now split.
      - exists 0, ys. split; [reflexivity|]. now split. }
    apply (G (S (mu xs)) xs); auto.
  Qed.

End L.
