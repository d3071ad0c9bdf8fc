(** Merging and set operations on lists. *)
From Coq Require Import List Arith Bool Lia Sorted Permutation.
From Verif Require Import Base SearchSpec OrderSpec OrderProof ListFacts SetSpec.
Import ListNotations.

Section L.
  Context {A : Type}.
  Variable comp : A -> A -> bool.
  Hypothesis W : strict_weak_order comp.
  Implicit Types xs ys out : list A.

  Lemma sorted_list_iff xs : sorted_list comp xs <-> ssorted comp xs.
  Proof.
    unfold sorted_list. rewrite (sorted_range_slice comp W) by (split; lia). now rewrite slice_full.
  Qed.

  Lemma equiv_iff z x : equiv_to comp z x = true <-> comp z x = false /\ comp x z = false.
  Proof. unfold equiv_to. rewrite andb_true_iff, !negb_true_iff. tauto. Qed.

  Lemma class_nil z : class comp z [] = [].
  Proof. reflexivity. Qed.

  Lemma class_cons z x xs : class comp z (x :: xs) =
    if equiv_to comp z x then x :: class comp z xs else class comp z xs.
  Proof. reflexivity. Qed.

  Lemma class_app z xs ys : class comp z (xs ++ ys) = class comp z xs ++ class comp z ys.
  Proof. apply filter_app. Qed.

  Lemma class_none z xs : (forall x, In x xs -> comp z x = true \/ comp x z = true) -> class comp z xs = [].
  Proof.
    induction xs as [|x t IH]; intros H; [reflexivity|]. rewrite class_cons.
    assert (E : equiv_to comp z x = false).
    { destruct (equiv_to comp z x) eqn:E; [|reflexivity]. apply equiv_iff in E.
      destruct (H x); [now left| |]; destruct E; congruence. }
    rewrite E. apply IH. intros; apply H; now right.
  Qed.

  Lemma in_class z x xs : In x (class comp z xs) <-> In x xs /\ equiv_to comp z x = true.
  Proof. apply filter_In. Qed.

  Lemma ssorted_inv x xs : ssorted comp (x :: xs) -> ssorted comp xs /\ forall y, In y xs -> comp y x = false.
  Proof. intros H. inversion H as [|? ? H1 H2]; subst. rewrite Forall_forall in H2. auto. Qed.

  Lemma ssorted_cons x xs : ssorted comp xs -> (forall y, In y xs -> comp y x = false) -> ssorted comp (x :: xs).
  Proof. intros H1 H2. constructor; [exact H1|]. apply Forall_forall. exact H2. Qed.

  Lemma ssorted_app xs ys : ssorted comp xs -> ssorted comp ys ->
    (forall x y, In x xs -> In y ys -> comp y x = false) -> ssorted comp (xs ++ ys).
  Proof.
    intros H1 H2 H. induction xs as [|x t IH]; [exact H2|]. cbn. apply ssorted_inv in H1. destruct H1 as [H1 H1'].
    apply ssorted_cons.
    - apply IH; [exact H1|]. intros a b Ha Hb. apply H; [now right|exact Hb].
    - intros y Hy. apply in_app_iff in Hy. destruct Hy as [Hy|Hy]; [auto|]. apply H; [now left|exact Hy].
  Qed.

  Lemma ssorted_app_inv xs ys : ssorted comp (xs ++ ys) -> ssorted comp xs /\ ssorted comp ys /\
    forall x y, In x xs -> In y ys -> comp y x = false.
  Proof.
    induction xs as [|x t IH]; intros H; cbn in H.
    - split; [constructor|]. split; [exact H|]. easy.
    - apply ssorted_inv in H. destruct H as [H H']. destruct (IH H) as (H1 & H2 & H3).
      split; [apply ssorted_cons; [exact H1|]; intros; apply H', in_app_iff; auto|].
      split; [exact H2|]. intros a b [<-|Ha] Hb; [apply H', in_app_iff; auto|auto].
  Qed.

  (** Sorted lists with the same classes are equal: the specifications determine their
      output. *)
  Lemma sorted_class_eq : forall xs ys, ssorted comp xs -> ssorted comp ys ->
    (forall z, class comp z xs = class comp z ys) -> xs = ys.
  Proof.
    induction xs as [|x xt IH]; intros ys Hx Hy H.
    - destruct ys as [|y yt]; [reflexivity|]. specialize (H y). rewrite class_cons in H.
      assert (E : equiv_to comp y y = true) by (apply equiv_iff; split; apply (swo_irr comp W)).
      rewrite E in H. discriminate.
    - assert (E : equiv_to comp x x = true) by (apply equiv_iff; split; apply (swo_irr comp W)).
      destruct ys as [|y yt]. { specialize (H x). rewrite class_cons, E in H. discriminate. }
      apply ssorted_inv in Hx. destruct Hx as [Hx Hx']. apply ssorted_inv in Hy. destruct Hy as [Hy Hy'].
      assert (Exy : equiv_to comp x y = true).
      { destruct (comp x y) eqn:C1; [|destruct (comp y x) eqn:C2].
        - (* x < y: nothing in ys is equivalent to x *)
          exfalso. specialize (H x). rewrite class_cons, E in H.
          rewrite (class_none x (y :: yt)) in H; [discriminate|].
          intros z [<-|Hz]; [now left|]. left. specialize (Hy' z Hz).
          destruct (swo_split comp W x z y C1) as [C|C]; [exact C|congruence].
        - exfalso. specialize (H y).
          assert (Ey : equiv_to comp y y = true) by (apply equiv_iff; split; apply (swo_irr comp W)).
          rewrite (class_cons y y), Ey in H.
          rewrite (class_none y (x :: xt)) in H; [discriminate|].
          intros z [<-|Hz]; [now left|]. left. specialize (Hx' z Hz).
          destruct (swo_split comp W y z x C2) as [C|C]; [exact C|congruence].
        - apply equiv_iff. auto. }
      assert (x = y) as <-.
      { specialize (H x). rewrite !class_cons, E, Exy in H. now injection H. }
      f_equal. apply IH; auto. intros z. specialize (H z). rewrite !class_cons in H.
      destruct (equiv_to comp z x); [now injection H|exact H].
  Qed.

  (** ** set operations: [a], [b]: elements without partner in the first, the second list
      are kept; [e]: elements of the first list with a partner are kept *)
  Section Op.
    Variables a b e : bool.

    Fixpoint setop (xs : list A) : list A -> list A :=
      fix go (ys : list A) : list A :=
        match xs, ys with
        | [], _ => if b then ys else []
        | _, [] => if a then xs else []
        | x :: xt, y :: yt =>
            if comp x y then (if a then [x] else []) ++ setop xt ys
            else if comp y x then (if b then [y] else []) ++ go yt
            else (if e then [x] else []) ++ setop xt yt
        end.

    Lemma setop_nil_l ys : setop [] ys = if b then ys else [].
    Proof. destruct ys; reflexivity. Qed.
    Lemma setop_nil_r xs : setop xs [] = if a then xs else [].
    Proof. destruct xs; [|reflexivity]. cbn. now destruct a, b. Qed.
    Lemma setop_cons x xt y yt : setop (x :: xt) (y :: yt) =
      if comp x y then (if a then [x] else []) ++ setop xt (y :: yt)
      else if comp y x then (if b then [y] else []) ++ setop (x :: xt) yt
      else (if e then [x] else []) ++ setop xt yt.
    Proof. reflexivity. Qed.

    (** Induction following the merge. *)
    Lemma merge_ind (P : list A -> list A -> Prop) :
      (forall ys, P [] ys) -> (forall xs, P xs []) ->
      (forall x xt y yt, P xt (y :: yt) -> P (x :: xt) yt -> P xt yt -> P (x :: xt) (y :: yt)) ->
      forall xs ys, P xs ys.
    Proof.
      intros H1 H2 H3. induction xs as [|x xt IHx]; intros ys; [apply H1|].
      induction ys as [|y yt IHy]; [apply H2|]. apply H3; auto.
    Qed.

    Lemma setop_in z : forall xs ys, In z (setop xs ys) -> In z xs \/ In z ys.
    Proof.
      apply (merge_ind (fun xs ys => In z (setop xs ys) -> In z xs \/ In z ys)).
      - intros ys. rewrite setop_nil_l. destruct b; [auto|easy].
      - intros xs. rewrite setop_nil_r. destruct a; [auto|easy].
      - intros x xt y yt I1 I2 I3. rewrite setop_cons.
        destruct (comp x y); [|destruct (comp y x)]; intros H; apply in_app_iff in H; destruct H as [H|H].
        + destruct a; [|easy]. destruct H as [<-|[]]. left. now left.
        + destruct (I1 H); [left; now right|now right].
        + destruct b; [|easy]. destruct H as [<-|[]]. right. now left.
        + destruct (I2 H); [now left|right; now right].
        + destruct e; [|easy]. destruct H as [<-|[]]. left. now left.
        + destruct (I3 H); [left; now right|right; now right].
    Qed.

    Lemma setop_sorted : forall xs ys, ssorted comp xs -> ssorted comp ys -> ssorted comp (setop xs ys).
    Proof.
      apply (merge_ind (fun xs ys => ssorted comp xs -> ssorted comp ys -> ssorted comp (setop xs ys))).
      - intros ys _ H. rewrite setop_nil_l. destruct b; [exact H|constructor].
      - intros xs H _. rewrite setop_nil_r. destruct a; [exact H|constructor].
      - intros x xt y yt I1 I2 I3 Hx Hy. pose proof Hx as Hx0. pose proof Hy as Hy0.
        apply ssorted_inv in Hx. destruct Hx as [Hx Hx']. apply ssorted_inv in Hy. destruct Hy as [Hy Hy'].
        rewrite setop_cons.
        destruct (comp x y) eqn:C1; [|destruct (comp y x) eqn:C2].
        + destruct a; cbn [app]; [|auto]. apply ssorted_cons; [auto|].
          intros z Hz. apply setop_in in Hz. destruct Hz as [Hz|[<-|Hz]]; [auto|now apply (swo_asym comp W)|].
          apply (swo_neg comp W _ y); [auto|now apply (swo_asym comp W)].
        + destruct b; cbn [app]; [|auto]. apply ssorted_cons; [auto|].
          intros z Hz. apply setop_in in Hz. destruct Hz as [[<-|Hz]|Hz]; [now apply (swo_asym comp W)| |auto].
          apply (swo_neg comp W _ x); [auto|now apply (swo_asym comp W)].
        + destruct e; cbn [app]; [|auto]. apply ssorted_cons; [auto|].
          intros z Hz. apply setop_in in Hz. destruct Hz as [Hz|Hz]; [auto|].
          apply (swo_neg comp W _ y); auto.
    Qed.

    Definition cls (cx cy : list A) : list A :=
      (if e then firstn (length cy) cx else []) ++ (if a then skipn (length cy) cx else []) ++
      (if b then skipn (length cx) cy else []).

    Lemma cls_nil_r cx : cls cx [] = if a then cx else [].
    Proof. unfold cls. cbn [length firstn skipn]. rewrite skipn_nil. now destruct a, b, e; cbn; rewrite ?app_nil_r. Qed.
    Lemma cls_nil_l cy : cls [] cy = if b then cy else [].
    Proof. unfold cls. rewrite firstn_nil, skipn_nil. now destruct a, b, e. Qed.
    Lemma cls_cons x cx y cy : cls (x :: cx) (y :: cy) = (if e then [x] else []) ++ cls cx cy.
    Proof. unfold cls. cbn [length firstn skipn]. now destruct e. Qed.

    Lemma setop_class z : forall xs ys, ssorted comp xs -> ssorted comp ys ->
      class comp z (setop xs ys) = cls (class comp z xs) (class comp z ys).
    Proof.
      apply (merge_ind (fun xs ys => ssorted comp xs -> ssorted comp ys ->
        class comp z (setop xs ys) = cls (class comp z xs) (class comp z ys))).
      - intros ys _ H. rewrite setop_nil_l, class_nil, cls_nil_l. now destruct b.
      - intros xs H _. rewrite setop_nil_r, class_nil, cls_nil_r. now destruct a.
      - intros x xt y yt I1 I2 I3 Hx Hy. pose proof Hx as Hx0. pose proof Hy as Hy0.
        apply ssorted_inv in Hx. destruct Hx as [Hx Hx']. apply ssorted_inv in Hy. destruct Hy as [Hy Hy'].
        rewrite setop_cons.
        destruct (comp x y) eqn:C1; [|destruct (comp y x) eqn:C2]; rewrite class_app.
        + rewrite I1 by auto. rewrite (class_cons z x xt).
          destruct (equiv_to comp z x) eqn:Ez.
          * assert (N : class comp z (y :: yt) = []).
            { apply equiv_iff in Ez. destruct Ez as [E1 E2]. apply class_none. intros w Hw. left.
              assert (Hxw : comp x w = true).
              { destruct Hw as [<-|Hw]; [exact C1|]. destruct (swo_split comp W x w y C1) as [C|C]; [exact C|].
                rewrite Hy' in C by exact Hw. discriminate. }
              destruct (swo_split comp W x z w Hxw) as [C|C]; [congruence|exact C]. }
            rewrite N, !cls_nil_r. destruct a; cbn; now rewrite ?Ez.
          * destruct a; cbn; now rewrite ?Ez.
        + rewrite I2 by auto. rewrite (class_cons z y yt).
          destruct (equiv_to comp z y) eqn:Ez.
          * assert (N : class comp z (x :: xt) = []).
            { apply equiv_iff in Ez. destruct Ez as [E1 E2]. apply class_none. intros w Hw. left.
              assert (Hxw : comp y w = true).
              { destruct Hw as [<-|Hw]; [exact C2|]. destruct (swo_split comp W y w x C2) as [C|C]; [exact C|].
                rewrite Hx' in C by exact Hw. discriminate. }
              destruct (swo_split comp W y z w Hxw) as [C|C]; [congruence|exact C]. }
            rewrite N, !cls_nil_l. destruct b; cbn; now rewrite ?Ez.
          * destruct b; cbn; now rewrite ?Ez.
        + rewrite I3 by auto. rewrite (class_cons z x xt), (class_cons z y yt).
          assert (Exy : equiv_to comp z x = equiv_to comp z y).
          { assert (EE : equivalent comp x y) by (split; assumption).
            destruct W as (_ & _ & T). apply Bool.eq_iff_eq_true. rewrite !equiv_iff. split; intros [E1 E2].
            - apply (T z x y); [split; assumption|exact EE].
            - apply (T z y x); [split; assumption|]. split; assumption. }
          rewrite <- Exy. destruct (equiv_to comp z x) eqn:Ez.
          * rewrite cls_cons. destruct e; cbn; now rewrite ?Ez.
          * destruct e; cbn; now rewrite ?Ez.
    Qed.
  End Op.

  (** ** merge *)
  Fixpoint mrg (xs : list A) : list A -> list A :=
    fix go (ys : list A) : list A :=
      match xs, ys with
      | [], _ => ys
      | _, [] => xs
      | x :: xt, y :: yt => if comp y x then y :: go yt else x :: mrg xt ys
      end.

  Lemma mrg_nil_l ys : mrg [] ys = ys.
  Proof. destruct ys; reflexivity. Qed.
  Lemma mrg_nil_r xs : mrg xs [] = xs.
  Proof. destruct xs; reflexivity. Qed.
  Lemma mrg_cons x xt y yt : mrg (x :: xt) (y :: yt) =
    if comp y x then y :: mrg (x :: xt) yt else x :: mrg xt (y :: yt).
  Proof. reflexivity. Qed.

  Lemma mrg_in z : forall xs ys, In z (mrg xs ys) -> In z xs \/ In z ys.
  Proof.
    apply (merge_ind (fun xs ys => In z (mrg xs ys) -> In z xs \/ In z ys)).
    - intros ys. rewrite mrg_nil_l. auto.
    - intros xs. rewrite mrg_nil_r. auto.
    - intros x xt y yt I1 I2 _. rewrite mrg_cons. destruct (comp y x); intros [<-|H].
      + right. now left.
      + destruct (I2 H); [now left|right; now right].
      + left. now left.
      + destruct (I1 H); [left; now right|now right].
  Qed.

  Lemma mrg_sorted : forall xs ys, ssorted comp xs -> ssorted comp ys -> ssorted comp (mrg xs ys).
  Proof.
    apply (merge_ind (fun xs ys => ssorted comp xs -> ssorted comp ys -> ssorted comp (mrg xs ys))).
    - intros ys _ H. now rewrite mrg_nil_l.
    - intros xs H _. now rewrite mrg_nil_r.
    - intros x xt y yt I1 I2 _ Hx Hy. pose proof Hx as Hx0. pose proof Hy as Hy0.
      apply ssorted_inv in Hx. destruct Hx as [Hx Hx']. apply ssorted_inv in Hy. destruct Hy as [Hy Hy'].
      rewrite mrg_cons. destruct (comp y x) eqn:C.
      + apply ssorted_cons; [auto|]. intros z Hz. apply mrg_in in Hz.
        destruct Hz as [[<-|Hz]|Hz]; [now apply (swo_asym comp W)| |auto].
        apply (swo_neg comp W _ x); [auto|now apply (swo_asym comp W)].
      + apply ssorted_cons; [auto|]. intros z Hz. apply mrg_in in Hz.
        destruct Hz as [Hz|[<-|Hz]]; [auto|exact C|]. apply (swo_neg comp W _ y); auto.
  Qed.

  Lemma mrg_class z : forall xs ys, ssorted comp xs -> ssorted comp ys ->
    class comp z (mrg xs ys) = class comp z xs ++ class comp z ys.
  Proof.
    apply (merge_ind (fun xs ys => ssorted comp xs -> ssorted comp ys ->
      class comp z (mrg xs ys) = class comp z xs ++ class comp z ys)).
    - intros ys _ H. now rewrite mrg_nil_l.
    - intros xs H _. now rewrite mrg_nil_r, class_nil, app_nil_r.
    - intros x xt y yt I1 I2 _ Hx Hy. pose proof Hx as Hx0. pose proof Hy as Hy0.
      apply ssorted_inv in Hx. destruct Hx as [Hx Hx']. apply ssorted_inv in Hy. destruct Hy as [Hy Hy'].
      rewrite mrg_cons. destruct (comp y x) eqn:C.
      + rewrite (class_cons z y (mrg (x :: xt) yt)), (class_cons z y yt), I2 by auto.
        destruct (equiv_to comp z y) eqn:Ez; [|reflexivity].
        assert (N : class comp z (x :: xt) = []).
        { apply equiv_iff in Ez. destruct Ez as [E1 E2]. apply class_none. intros w Hw. left.
          assert (Hxw : comp y w = true).
          { destruct Hw as [<-|Hw]; [exact C|]. destruct (swo_split comp W y w x C) as [D|D]; [exact D|].
            rewrite Hx' in D by exact Hw. discriminate. }
          destruct (swo_split comp W y z w Hxw) as [D|D]; [congruence|exact D]. }
        now rewrite N.
      + rewrite (class_cons z x (mrg xt (y :: yt))), (class_cons z x xt), I1 by auto.
        now destruct (equiv_to comp z x).
  Qed.

  Lemma mrg_length : forall xs ys, length (mrg xs ys) = length xs + length ys.
  Proof.
    apply (merge_ind (fun xs ys => length (mrg xs ys) = length xs + length ys)).
    - intros ys. now rewrite mrg_nil_l.
    - intros xs. rewrite mrg_nil_r. cbn. lia.
    - intros x xt y yt I1 I2 _. rewrite mrg_cons. destruct (comp y x); cbn [length] in *; lia.
  Qed.

  Lemma mrg_perm : forall xs ys, Permutation (xs ++ ys) (mrg xs ys).
  Proof.
    apply (merge_ind (fun xs ys => Permutation (xs ++ ys) (mrg xs ys))).
    - intros ys. now rewrite mrg_nil_l.
    - intros xs. now rewrite mrg_nil_r, app_nil_r.
    - intros x xt y yt I1 I2 _. rewrite mrg_cons. destruct (comp y x).
      + etransitivity; [symmetry; apply Permutation_middle|]. now constructor.
      + cbn. now constructor.
  Qed.

  (** ** the list functions meet the specifications *)
  Lemma merge_of_mrg xs ys : ssorted comp xs -> ssorted comp ys -> merge_of comp xs ys (mrg xs ys).
  Proof.
    intros Hx Hy. split; [apply sorted_list_iff; now apply mrg_sorted|]. intros z. now apply mrg_class.
  Qed.

  Lemma merge_of_unique xs ys out1 out2 : merge_of comp xs ys out1 -> merge_of comp xs ys out2 -> out1 = out2.
  Proof.
    intros [S1 C1] [S2 C2]. apply sorted_class_eq; [now apply sorted_list_iff..|].
    intros z. now rewrite C1, C2.
  Qed.

  Lemma union_of_setop xs ys : ssorted comp xs -> ssorted comp ys ->
    union_of comp xs ys (setop true true true xs ys).
  Proof.
    intros Hx Hy. split; [apply sorted_list_iff; now apply setop_sorted|].
    intros z. rewrite setop_class by assumption. unfold cls.
    now rewrite app_assoc, firstn_skipn.
  Qed.

  Lemma intersection_of_setop xs ys : ssorted comp xs -> ssorted comp ys ->
    intersection_of comp xs ys (setop false false true xs ys).
  Proof.
    intros Hx Hy. split; [apply sorted_list_iff; now apply setop_sorted|].
    intros z. rewrite setop_class by assumption. unfold cls. now rewrite !app_nil_r.
  Qed.

  Lemma difference_of_setop xs ys : ssorted comp xs -> ssorted comp ys ->
    difference_of comp xs ys (setop true false false xs ys).
  Proof.
    intros Hx Hy. split; [apply sorted_list_iff; now apply setop_sorted|].
    intros z. rewrite setop_class by assumption. unfold cls. now rewrite !app_nil_r.
  Qed.

  Lemma symmetric_difference_of_setop xs ys : ssorted comp xs -> ssorted comp ys ->
    symmetric_difference_of comp xs ys (setop true true false xs ys).
  Proof.
    intros Hx Hy. split; [apply sorted_list_iff; now apply setop_sorted|].
    intros z. now rewrite setop_class by assumption.
  Qed.
End L.
