(** Fixed containers: stable_sort and sort. *)
From Coq Require Import List Arith NArith Bool Lia Permutation ZArith ZifyBool ZifyNat ZifyN.
From Verif Require Import Base BaseProof SearchModel SearchSpec SearchProof OrderSpec OrderModel OrderProof OrderProof4 ListFacts
  MutModel MutSpec MutProof MutProof2 MutProof3 SetSpec SetProof ValFacts SortSpec SortProof.
From Verif Require Import FixModel FixSpec FixProof FixProof2.
Import ListNotations.

Section P.
  Context {A : Type}.
  Variable comp : A -> A -> bool.
  Hypothesis W : strict_weak_order comp.
  Variable d0 : A.
  Notation v := (v d0).
  Notation class := (class comp).

  Lemma lt_le_lt a b c : comp a b = true -> comp c b = false -> comp a c = true.
  Proof. intros H1 H2. destruct (comp a c) eqn:E; [reflexivity|]. pose proof (swo_neg comp W _ _ _ E H2). congruence. Qed.
  Lemma le_lt_lt a b c : comp b a = false -> comp b c = true -> comp a c = true.
  Proof. intros H1 H2. destruct (comp a c) eqn:E; [reflexivity|]. pose proof (swo_neg comp W _ _ _ H1 E). congruence. Qed.

  (** Adding the next class. *)
  Definition sorted_upto (xs : list A) (prev : A) (args : list A) : Prop :=
    ssorted comp args /\ Permutation args (filter (fun x => negb (comp prev x)) xs) /\
    forall z, class z args = if comp prev z then [] else class z xs.

  Lemma in_class z x xs : In x (class z xs) <-> In x xs /\ comp z x = false /\ comp x z = false.
  Proof. unfold SetSpec.class. rewrite filter_In, (equiv_iff comp). tauto. Qed.

  Lemma class_class z w xs : equiv_to comp z w = true -> class z (class w xs) = class z xs.
  Proof.
    intros E. apply (equiv_iff comp) in E. destruct E as [E1 E2]. induction xs as [|x xs IH]; [reflexivity|].
    rewrite !(class_cons comp w), (class_cons comp z x xs). destruct (equiv_to comp w x) eqn:F.
    - rewrite class_cons. destruct (equiv_to comp z x); now rewrite IH.
    - destruct (equiv_to comp z x) eqn:G; [|exact IH]. exfalso. apply (equiv_iff comp) in G. destruct G as [G1 G2].
      assert (equiv_to comp w x = true); [|congruence]. apply (equiv_iff comp).
      split; [exact (swo_neg comp W _ _ _ E2 G1)|exact (swo_neg comp W _ _ _ G2 E1)].
  Qed.

  Lemma class_ssorted w xs : ssorted comp (class w xs).
  Proof.
    induction xs as [|x xs IH]; [constructor|]. rewrite class_cons. destruct (equiv_to comp w x) eqn:E; [|exact IH].
    apply (equiv_iff comp) in E. apply ssorted_cons; [exact IH|]. intros y Hy. apply in_class in Hy.
    exact (swo_neg comp W _ _ _ (proj2 (proj2 Hy)) (proj1 E)).
  Qed.

  Lemma next_class_perm prev w xs : comp prev w = true -> (forall x, In x xs -> comp prev x = true -> comp x w = false) ->
    Permutation (filter (fun x => negb (comp prev x)) xs ++ class w xs) (filter (fun x => negb (comp w x)) xs).
  Proof.
    intros Lt. induction xs as [|x xs IH]; intros H; [reflexivity|].
    assert (IH' := IH (fun y Hy => H y (or_intror Hy))). rewrite class_cons. cbn [filter].
    destruct (comp prev x) eqn:C; cbn [negb].
    - pose proof (H x (or_introl eq_refl) C) as C2. unfold equiv_to. rewrite C2. destruct (comp w x) eqn:C1; cbn [negb andb]; [exact IH'|].
      rewrite <- Permutation_middle. now apply perm_skip.
    - assert (C1 : comp w x = false).
      { destruct (comp w x) eqn:E; [|reflexivity]. pose proof (swo_trans comp W _ _ _ Lt E). congruence. }
      assert (C2 : comp x w = true) by exact (le_lt_lt _ _ _ C Lt).
      unfold equiv_to. rewrite C1, C2. cbn [negb andb app]. now apply perm_skip.
  Qed.

  Lemma next_class xs prev args w : sorted_upto xs prev args -> comp prev w = true ->
    (forall x, In x xs -> comp prev x = true -> comp x w = false) -> sorted_upto xs w (args ++ class w xs).
  Proof.
    intros (S1 & P1 & C1) Lt Min.
    assert (IA : forall x, In x args -> comp prev x = false).
    { intros x Hx. apply (Permutation_in _ P1) in Hx. apply filter_In in Hx. destruct Hx as [_ Hx]. now apply negb_true_iff. }
    split; [|split].
    - apply ssorted_app; [exact S1|apply class_ssorted|]. intros x y Hx Hy. apply in_class in Hy.
      apply (swo_neg comp W _ w); [apply Hy|]. apply (swo_asym comp W). exact (le_lt_lt _ _ _ (IA x Hx) Lt).
    - rewrite P1. now apply next_class_perm.
    - intros z. rewrite class_app, C1. destruct (comp w z) eqn:E.
      + rewrite (swo_trans comp W _ _ _ Lt E). cbn [app]. apply (class_none comp). intros x Hx. apply in_class in Hx. right.
        exact (le_lt_lt _ _ _ (proj1 (proj2 Hx)) E).
      + destruct (comp prev z) eqn:F.
        * cbn [app]. destruct (comp z w) eqn:G.
          -- rewrite (class_none comp z xs).
             ++ apply (class_none comp). intros x Hx. apply in_class in Hx. left. exact (lt_le_lt _ _ _ G (proj2 (proj2 Hx))).
             ++ intros x Hx. destruct (comp z x) eqn:I; [now left|]. destruct (comp x z) eqn:J; [now right|]. exfalso.
                pose proof (Min x Hx (lt_le_lt _ _ _ F J)). pose proof (le_lt_lt _ _ _ I G). congruence.
          -- apply class_class. now apply (equiv_iff comp).
        * rewrite (class_none comp z (class w xs)); [apply app_nil_r|]. intros x Hx. apply in_class in Hx. left.
          exact (lt_le_lt _ _ _ (le_lt_lt _ _ _ F Lt) (proj2 (proj2 Hx))).
  Qed.

  Lemma first_class xs w : (forall x, In x xs -> comp x w = false) -> sorted_upto xs w (class w xs).
  Proof.
    intros Min. split; [apply class_ssorted|]. split.
    - assert (E : class w xs = filter (fun x => negb (comp w x)) xs).
      { unfold SetSpec.class. apply filter_ext_in. intros x Hx. unfold equiv_to. rewrite (Min x Hx). now rewrite andb_true_r. }
      now rewrite E.
    - intros z. destruct (comp w z) eqn:E.
      + apply (class_none comp). intros x Hx. apply in_class in Hx. right. exact (le_lt_lt _ _ _ (proj1 (proj2 Hx)) E).
      + destruct (comp z w) eqn:F.
        * rewrite (class_none comp z xs).
          -- apply (class_none comp). intros x Hx. apply in_class in Hx. left. exact (lt_le_lt _ _ _ F (proj2 (proj2 Hx))).
          -- intros x Hx. left. exact (lt_le_lt _ _ _ F (Min x Hx)).
        * apply class_class. now apply (equiv_iff comp).
  Qed.

  Lemma upto_length xs prev args : sorted_upto xs prev args -> length args <= length xs.
  Proof.
    intros (_ & P1 & _). rewrite (Permutation_length P1). clear. induction xs as [|x xs IH]; [apply Nat.le_refl|]. cbn [filter].
    destruct (negb _); cbn [length]; lia.
  Qed.

  Lemma upto_all xs prev args : sorted_upto xs prev args -> length args = length xs -> stable_sort_of comp xs args.
  Proof.
    intros (S1 & P1 & C1) L. split; [now apply (sorted_list_iff comp W)|]. intros z. rewrite C1.
    destruct (comp prev z) eqn:E; [|reflexivity]. symmetry. apply (class_none comp). intros x Hx. right.
    rewrite (Permutation_length P1) in L.
    assert (F : comp prev x = false); [|exact (le_lt_lt _ _ _ F E)].
    clear - L Hx. induction xs as [|y xs IH]; [destruct Hx|]. cbn [filter] in L.
    assert (LE : length (filter (fun x => negb (comp prev x)) xs) <= length xs).
    { clear. induction xs as [|x xs IH]; [apply Nat.le_refl|]. cbn [filter]. destruct (negb _); cbn [length]; lia. }
    destruct (comp prev y) eqn:G; cbn [negb length] in L; [lia|]. destruct Hx as [<-|Hx]; [exact G|]. apply IH; [lia|exact Hx].
  Qed.

  Lemma upto_some xs prev args : sorted_upto xs prev args -> length args < length xs -> exists x, In x xs /\ comp prev x = true.
  Proof.
    intros (_ & P1 & _) L. rewrite (Permutation_length P1) in L. clear - L. induction xs as [|y xs IH]; [cbn in L; lia|].
    cbn [filter] in L. destruct (comp prev y) eqn:G; cbn [negb length] in L; [exists y; split; [now left|exact G]|].
    destruct IH as (x & Hx & Hc); [lia|]. exists x. split; [now right|exact Hc].
  Qed.

  (** The scan for the least element that satisfies [P]. *)
  Section C.
  Variable c : cont A.
  Hypothesis Wc : wf c.
  Notation m := (cbase c).
  Notation off := (coff c).
  Notation e := (coff c + csize c).

  Definition found (P : A -> Prop) first value (count : N) current : Prop :=
    off <= current < first /\ value = v m current /\ P value /\
    (forall q, off <= q < first -> P (v m q) -> comp (v m q) value = false) /\
    class value (slice m off current) = [] /\
    count = N.of_nat (length (class value (slice m off first))).

  Definition none (P : A -> Prop) first : Prop := forall q, off <= q < first -> ~ P (v m q).

  Definition closed (P : A -> Prop) : Prop := forall x y, P x -> comp x y = false -> comp y x = false -> P y.

  Lemma in_slice_v x a b : b <= length m -> In x (slice m a b) -> exists q, a <= q < b /\ x = v m q.
  Proof.
    intros L H. apply in_slice in H. destruct H as (q & Hq & E). exists q. split; [exact Hq|]. symmetry. now apply v_nth_error.
  Qed.

  Lemma snoc first : first < length m -> off <= first -> slice m off (S first) = slice m off first ++ [v m first].
  Proof. intros H1 H2. apply slice_snoc; [exact H2|]. now apply nth_error_v. Qed.

  (** A new least element. *)
  Lemma found_new (P : A -> Prop) first value count current : closed P -> off <= first < e -> P (v m first) ->
    none P first \/ found P first value count current /\ comp (v m first) value = true ->
    found P (S first) (v m first) 1 first.
  Proof.
    intros CL H1 HP H. assert (Wc' := Wc). unfold wf in Wc'.
    assert (NE : forall q, off <= q < first -> P (v m q) -> comp (v m q) (v m first) = false /\ comp (v m first) (v m q) = true).
    { intros q Hq Pq. destruct H as [H|[(_ & _ & _ & H & _) C]]; [destruct (H q Hq Pq)|]. specialize (H q Hq Pq).
      pose proof (lt_le_lt _ _ _ C H) as F. split; [now apply (swo_asym comp W)|exact F]. }
    assert (Z : class (v m first) (slice m off first) = []).
    { apply (class_none comp). intros x Hx. apply in_slice_v in Hx; [|lia]. destruct Hx as (q & Hq & ->).
      destruct (comp (v m first) (v m q)) eqn:E1; [now left|]. destruct (comp (v m q) (v m first)) eqn:E2; [now right|]. exfalso.
      destruct (NE q Hq (CL _ _ HP E1 E2)). congruence. }
    split; [lia|]. split; [reflexivity|]. split; [exact HP|]. split; [|split; [exact Z|]].
    - intros q Hq Pq. destruct (Nat.eq_dec q first) as [->|N]; [apply (swo_irr comp W)|]. apply NE; [lia|exact Pq].
    - rewrite snoc, class_app, Z by lia. cbn [app]. rewrite class_cons.
      replace (equiv_to comp (v m first) (v m first)) with true; [reflexivity|]. symmetry. apply (equiv_iff comp).
      split; apply (swo_irr comp W).
  Qed.

  Lemma found_other (P : A -> Prop) first value count current : off <= first < e -> found P first value count current ->
    (P (v m first) -> comp (v m first) value = false) -> equiv_to comp value (v m first) = false ->
    found P (S first) value count current.
  Proof.
    intros H1 (F1 & F2 & F3 & F4 & F5 & F6) H NE. assert (Wc' := Wc). unfold wf in Wc'.
    split; [lia|]. split; [exact F2|]. split; [exact F3|]. split; [|split; [exact F5|]].
    - intros q Hq Pq. destruct (Nat.eq_dec q first) as [->|N]; [auto|]. apply F4; [lia|exact Pq].
    - rewrite snoc, class_app by lia. rewrite class_cons, NE, app_nil_r. exact F6.
  Qed.

  Lemma found_same (P : A -> Prop) first value count current : off <= first < e -> found P first value count current ->
    equiv_to comp value (v m first) = true -> found P (S first) value (N.succ count) current.
  Proof.
    intros H1 (F1 & F2 & F3 & F4 & F5 & F6) EQ. assert (Wc' := Wc). unfold wf in Wc'.
    split; [lia|]. split; [exact F2|]. split; [exact F3|]. split; [|split; [exact F5|]].
    - intros q Hq Pq. destruct (Nat.eq_dec q first) as [->|N]; [now apply (equiv_iff comp) in EQ|]. apply F4; [lia|exact Pq].
    - rewrite snoc, class_app by lia. rewrite class_cons, EQ. rewrite app_length. cbn. lia.
  Qed.

  (** What is left after the first element of the class. *)
  Lemma found_rest (P : A -> Prop) value count current : found P e value count current ->
    class value (elems c) = value :: class value (slice m (S current) e) /\
    pred_size count = N.of_nat (length (class value (slice m (S current) e))).
  Proof.
    intros (F1 & F2 & F3 & F4 & F5 & F6). assert (Wc' := Wc). unfold wf in Wc'.
    assert (E : class value (elems c) = value :: class value (slice m (S current) e)).
    { unfold elems. rewrite (slice_app m off current e) by lia.
      rewrite (slice_cons m current e (v m current)); [|lia|apply nth_error_v; lia].
      rewrite class_app, F5. cbn [app]. rewrite class_cons, <- F2.
      replace (equiv_to comp value value) with true; [reflexivity|]. symmetry. apply (equiv_iff comp). split; apply (swo_irr comp W). }
    split; [exact E|]. rewrite F6. fold (elems c). rewrite E. cbn [length]. unfold pred_size.
    destruct (N.eqb_spec (N.of_nat (S (length (class value (slice m (S current) e))))) 0) as [Z|Z]; lia.
  Qed.

  Lemma synonym_ok (Q : cont A -> Prop) value : forall n first count args d, first + n = e -> off <= first -> n < d ->
    count = N.of_nat (length (class value (slice m first e))) ->
    length (args ++ class value (slice m first e)) <= csize c ->
    wp (container_complate c (args ++ class value (slice m first e))) (fun c' =>
      length (args ++ class value (slice m first e)) = csize c -> Q c') ->
    (forall d', d <= d' + n + 1 -> wp (fx_stable_sort_impl_restart comp d' c value (args ++ class value (slice m first e))) Q) ->
    wp (fx_stable_sort_impl_synonym comp d c first value count args) Q.
  Proof.
    assert (Wc' := Wc). unfold wf in Wc'.
    induction n as [|n IH]; intros first count args [|d] Hn Ho Hd Hc L HF HR; try lia; cbn [fx_stable_sort_impl_synonym];
      (destruct (Nat.eqb_spec (length args) (static_size c)) as [E|N];
       [unfold static_size in E; rewrite app_length in L;
        assert (Z : class value (slice m first e) = []) by (apply length_zero_iff_nil; lia);
        rewrite Z, app_nil_r in *; rewrite complate_full in HF by exact E; eapply wp_mono; [exact HF|]; intros c' H; apply H; lia|]).
    - replace (first =? e) with true by lia. cbn [negb andb]. rewrite slice_nil in HR by lia. rewrite class_nil, app_nil_r in HR.
      apply HR. lia.
    - replace (first =? e) with false by lia. cbn [negb andb].
      rewrite (slice_cons m first e (v m first)) in * by (lia || (apply nth_error_v; lia)). rewrite class_cons in *.
      destruct (N.eqb_spec count 0) as [Z|NZ]; cbn [negb].
      + assert (Y : (if equiv_to comp value (v m first) then v m first :: class value (slice m (S first) e)
                     else class value (slice m (S first) e)) = []) by (apply length_zero_iff_nil; lia).
        rewrite Y, app_nil_r in HR. apply HR. lia.
      + rewrite (rd_v d0) by lia. cbn [bind].
        replace (negb (comp (v m first) value) && negb (comp value (v m first))) with (equiv_to comp value (v m first))
          by (unfold equiv_to; apply andb_comm).
        destruct (equiv_to comp value (v m first)) eqn:EQ.
        * assert (AS : args ++ v m first :: class value (slice m (S first) e) = (args ++ [v m first]) ++ class value (slice m (S first) e)).
          { now rewrite <- app_assoc. }
          rewrite AS in L, HF, HR. apply IH; [lia|lia|lia| |exact L|exact HF|].
          -- cbn [length] in Hc. unfold pred_size. destruct (N.eqb_spec count 0); lia.
          -- intros d' Hd'. apply HR. lia.
        * apply IH; [lia|lia|lia|exact Hc|exact L|exact HF|]. intros d' Hd'. apply HR. lia.
  Qed.

  Definition sorts (c' : cont A) : Prop := exists out, c' = with_front c out /\ stable_sort_of comp (elems c) out.

  Lemma elems_length : length (elems c) = csize c.
  Proof. assert (Wc' := Wc). unfold wf in Wc'. unfold elems. rewrite slice_length; lia. Qed.

  Lemma complate_sorts prev args : sorted_upto (elems c) prev args ->
    wp (container_complate c args) (fun c' => length args = csize c -> sorts c').
  Proof.
    intros H. assert (Wc' := Wc). unfold wf in Wc'. pose proof (upto_length _ _ _ H) as L. rewrite elems_length in L.
    rewrite complate_ok by lia. cbn [wp]. intros E. exists args. rewrite with_front_all by lia. split; [reflexivity|].
    apply (upto_all _ prev); [exact H|]. now rewrite elems_length.
  Qed.

  (** Once around the scan and the collection of one class. *)
  Lemma round_ok (P : A -> Prop) value count current args d :
    found P e value count current -> sorted_upto (elems c) value (args ++ class value (elems c)) -> csize c + 1 <= d ->
    (forall d', d <= d' + csize c + 1 -> wp (fx_stable_sort_impl_restart comp d' c value (args ++ class value (elems c))) sorts) ->
    wp (fx_stable_sort_impl_synonym comp d c (S current) value (pred_size count) (args ++ [value])) sorts.
  Proof.
    intros F H Hd HR. pose proof F as (F1 & _). assert (Wc' := Wc). unfold wf in Wc'.
    destruct (found_rest _ _ _ _ F) as [E1 E2].
    assert (AS : args ++ class value (elems c) = (args ++ [value]) ++ class value (slice m (S current) e)).
    { rewrite E1, <- app_assoc. reflexivity. }
    rewrite AS in *. apply (synonym_ok sorts value (e - S current)); [lia|lia|lia|exact E2| | |].
    - pose proof (upto_length _ _ _ H) as L. now rewrite elems_length in L.
    - exact (complate_sorts _ _ H).
    - intros d' Hd'. apply HR. lia.
  Qed.

  Lemma restart_1_ok prev args K : sorted_upto (elems c) prev args ->
    (exists x, In x (elems c) /\ comp prev x = true) ->
    (forall w d, sorted_upto (elems c) w (args ++ class w (elems c)) -> class w (elems c) <> [] -> K <= d ->
       wp (fx_stable_sort_impl_restart comp d c w (args ++ class w (elems c))) sorts) ->
    forall n first value count current d, first + n = e -> off <= first -> n + csize c + 2 + K <= d ->
    (count = 0%N /\ none (fun x => comp prev x = true) first \/
     count <> 0%N /\ found (fun x => comp prev x = true) first value count current) ->
    wp (fx_stable_sort_impl_restart_1 comp d c first value count current prev args) sorts.
  Proof.
    intros H Ex HR. assert (Wc' := Wc). unfold wf in Wc'. set (P := fun x => comp prev x = true) in *.
    assert (CL : closed P) by (intros x y Hx E1 E2; exact (lt_le_lt _ _ _ Hx E2)).
    induction n as [|n IH]; intros first value count current [|d] Hn Ho Hd Inv; try lia; cbn [fx_stable_sort_impl_restart_1].
    - replace (first =? e) with true by lia. cbn [negb]. replace first with e in Inv by lia.
      destruct Inv as [[_ N]|[NZ F]].
      { exfalso. destruct Ex as (x & Hx & Px). apply in_slice_v in Hx; [|lia]. destruct Hx as (q & Hq & ->). exact (N q Hq Px). }
      pose proof F as (F1 & F2 & F3 & F4 & _).
      assert (H' : sorted_upto (elems c) value (args ++ class value (elems c))).
      { apply (next_class _ prev); [exact H|exact F3|]. intros x Hx Px. apply in_slice_v in Hx; [|lia].
        destruct Hx as (q & Hq & ->). now apply F4. }
      apply (round_ok P); [exact F|exact H'|lia|]. intros d' Hd'. apply HR; [exact H'| |lia].
      destruct (found_rest _ _ _ _ F) as [-> _]. discriminate.
    - replace (first =? e) with false by lia. cbn [negb]. rewrite (rd_v d0) by lia. cbn [bind].
      assert (NEW : forall w k r, none P first \/ found P first w k r /\ comp (v m first) w = true -> comp prev (v m first) = true ->
        wp (fx_stable_sort_impl_restart_1 comp d c (S first) (v m first) 1 first prev args) sorts).
      { intros w k r Hw Px. apply IH; [lia|lia|lia|]. right. split; [discriminate|].
        apply (found_new P first w k r); [exact CL|lia|exact Px|exact Hw]. }
      destruct (comp prev (v m first)) eqn:C.
      + destruct Inv as [[-> N]|[NZ F]].
        * cbn [N.eqb orb]. apply (NEW value 0%N current); [now left|reflexivity].
        * replace (N.eqb count 0) with false by lia. cbn [orb]. destruct (comp (v m first) value) eqn:C1.
          -- apply (NEW value count current); [now right|reflexivity].
          -- destruct (comp value (v m first)) eqn:C2.
             ++ apply IH; [lia|lia|lia|]. right. split; [exact NZ|]. apply found_other; [lia|exact F|auto|].
                unfold equiv_to. now rewrite C2.
             ++ apply IH; [lia|lia|lia|]. right. split; [lia|]. apply found_same; [lia|exact F|]. apply (equiv_iff comp). auto.
      + apply IH; [lia|lia|lia|]. destruct Inv as [[Z N]|[NZ F]]; [left|right]; (split; [assumption|]).
        * intros q Hq. destruct (Nat.eq_dec q first) as [->|]; [unfold P; congruence|]. apply N. lia.
        * apply found_other; [lia|exact F|unfold P; congruence|]. pose proof F as (_ & _ & F3 & _). unfold P in F3.
          destruct (equiv_to comp value (v m first)) eqn:EQ; [|reflexivity]. apply (equiv_iff comp) in EQ.
          pose proof (lt_le_lt _ _ _ F3 (proj2 EQ)). congruence.
  Qed.

  Lemma restart_ok : forall k prev args d, sorted_upto (elems c) prev args -> csize c - length args <= k ->
    1 + k * (2 * csize c + 3) <= d -> wp (fx_stable_sort_impl_restart comp d c prev args) sorts.
  Proof.
    assert (Wc' := Wc). unfold wf in Wc'.
    induction k as [|k IH]; intros prev args [|d] H Hk Hd; try lia; cbn [fx_stable_sort_impl_restart];
      pose proof (upto_length _ _ _ H) as L; rewrite elems_length in L.
    - replace (length args <? csize c) with false by lia. eapply wp_mono; [apply (complate_sorts _ _ H)|].
      intros c' HQ. apply HQ. lia.
    - destruct (Nat.ltb_spec (length args) (csize c)) as [C|C].
      + rewrite (rd_v d0) by lia. cbn [bind].
        apply (restart_1_ok prev args (1 + k * (2 * csize c + 3)) H) with (n := csize c).
        * apply (upto_some _ _ args); [exact H|]. now rewrite elems_length.
        * intros w d' H' NE Hd'. apply (IH w); [exact H'| |exact Hd']. rewrite app_length.
          destruct (class w (elems c)); [congruence|]. cbn [length]. lia.
        * lia.
        * lia.
        * lia.
        * left. split; [reflexivity|]. intros q Hq. lia.
      + eapply wp_mono; [apply (complate_sorts _ _ H)|]. intros c' HQ. apply HQ. lia.
  Qed.

  Lemma sort_1_ok : forall n first value count current d, first + n = e -> off <= first ->
    n + csize c + 2 + (1 + csize c * (2 * csize c + 3)) <= d ->
    found (fun _ => True) first value count current ->
    wp (fx_stable_sort_impl_1 comp d c first value count current) sorts.
  Proof.
    assert (Wc' := Wc). unfold wf in Wc'. set (P := fun _ : A => True).
    assert (CL : closed P) by (intros x y Hx E1 E2; exact I).
    induction n as [|n IH]; intros first value count current [|d] Hn Ho Hd F; try lia; cbn [fx_stable_sort_impl_1].
    - replace (first =? e) with true by lia. cbn [negb]. replace first with e in F by lia.
      pose proof F as (F1 & F2 & F3 & F4 & _).
      assert (H' : sorted_upto (elems c) value ([] ++ class value (elems c))).
      { apply first_class. intros x Hx. apply in_slice_v in Hx; [|lia]. destruct Hx as (q & Hq & ->). now apply F4. }
      apply (round_ok P value count current []); [exact F|exact H'|lia|]. intros d' Hd'.
      apply (restart_ok (csize c)); [exact H'|lia|lia].
    - replace (first =? e) with false by lia. cbn [negb]. rewrite (rd_v d0) by lia. cbn [bind].
      destruct (comp (v m first) value) eqn:C1; [|destruct (comp value (v m first)) eqn:C2]; apply IH; try lia.
      + apply (found_new P first value count current); [exact CL|lia|exact I|]. right. now split.
      + apply found_other; [lia|exact F|auto|]. unfold equiv_to. now rewrite C2.
      + apply found_same; [lia|exact F|]. apply (equiv_iff comp). auto.
  Qed.

  Lemma stable_sort_ok d : 0 < csize c -> 2 * (csize c + 2) * (csize c + 2) <= d -> wp (fx_stable_sort comp d c) sorts.
  Proof.
    intros Hs Hd. assert (Wc' := Wc). unfold wf in Wc'. unfold fx_stable_sort, static_size.
    destruct (Nat.leb_spec (length m) 1) as [C|C].
    - cbn [wp]. exists (elems c). split.
      + rewrite with_front_all by (rewrite elems_length; lia). unfold elems. rewrite paste_slice by (split; lia). now destruct c.
      + split; [|reflexivity]. apply (sorted_list_iff comp W). pose proof elems_length as L.
        destruct (elems c) as [|x [|y l]]; cbn [length] in L; try lia. apply ssorted_cons; [constructor|]. intros y [].
    - rewrite (rd_v d0) by lia. cbn [bind]. apply (sort_1_ok (csize c - 1)); [lia|lia|lia|].
      apply (found_new (fun _ => True) off (v m off) 0%N off); [intros x y _ _ _; exact I|lia|exact I|].
      left. intros q Hq. lia.
  Qed.
  End C.
End P.

Section Q.
  Context {A : Type}.
  Variable comp : A -> A -> bool.
  Hypothesis W : strict_weak_order comp.

  Lemma fx_stable_sort_partial_lemma d (c : cont A) : wf c -> 0 < csize c \/ static_size c <= 1 ->
    2 * (csize c + 2) * (csize c + 2) <= d ->
    exists out, fx_stable_sort comp d c = Ok (with_front c out) /\ stable_sort_of comp (elems c) out.
  Proof.
    intros Wc Hs Hd. pose proof Wc as Wc'. unfold wf in Wc'.
    destruct (Nat.eq_dec (csize c) 0) as [Z|NZ].
    - exists []. destruct Hs as [Hs|Hs]; [lia|]. unfold fx_stable_sort. replace (static_size c <=? 1) with true by lia.
      unfold elems. rewrite slice_nil by lia. split; [|split; [intros i H1 H2; cbn in H2; lia|reflexivity]].
      f_equal. rewrite with_front_all by (cbn; lia). destruct c as [b o s]. cbn [cbase coff csize] in *. f_equal.
      unfold paste. cbn [length app]. rewrite Nat.add_0_r. symmetry. apply firstn_skipn.
    - destruct (cbase c) as [|d0 m0] eqn:E; [cbn in Wc'; lia|].
      destruct (wp_out _ _ (stable_sort_ok comp W d0 c Wc d ltac:(lia) Hd)) as (c' & E' & out & -> & H). eauto.
  Qed.
End Q.
