(** includes and is_permutation. *)
From Coq Require Import List Arith Bool ZArith Lia Permutation Sorted.
From Coq Require Import ZifyBool ZifyNat.
From Verif Require Import Base BaseProof SearchModel SearchSpec SearchProof SearchProof2
  OrderModel OrderSpec OrderProof OrderProof2 ListFacts.
Import ListNotations.
Ltac Zify.zify_post_hook ::= Z.div_mod_to_equations.

Section Incl.
  Context {A B : Type} (lt_ab : A -> B -> bool) (lt_ba : B -> A -> bool).
  Implicit Types (la : list A) (lb : list B).

  Fixpoint inc (xs : list A) (ys : list B) : bool :=
    match xs with
    | [] => match ys with [] => true | _ => false end
    | x :: xs' =>
        match ys with
        | [] => true
        | y :: ys' =>
            if lt_ba y x then false
            else if lt_ab x y then inc xs' ys else inc xs' ys'
        end
    end.

  Lemma inc_nil xs : inc xs [] = true.
  Proof. destruct xs; reflexivity. Qed.

  Section Ranges.
    Variables (la : list A) (lb : list B) (last1 last2 : nat).
    Hypothesis HL1 : last1 <= length la.
    Hypothesis HL2 : last2 <= length lb.

    Definition G (s : nat * bool) first1 : bool :=
      if snd s then false else inc (slice la first1 last1) (slice lb (fst s) last2).

    Definition wf (s : nat * bool) := fst s <= last2 /\ (snd s = true -> fst s < last2).

    Lemma inc_step i j x y : i < last1 -> j < last2 -> nth_error la i = Some x -> nth_error lb j = Some y ->
      inc (slice la i last1) (slice lb j last2) =
      if lt_ba y x then false
      else if lt_ab x y then inc (slice la (S i) last1) (slice lb j last2)
      else inc (slice la (S i) last1) (slice lb (S j) last2).
    Proof.
      intros Hi Hj Hx Hy. rewrite (slice_cons la i last1 x Hi Hx) at 1.
      rewrite (slice_cons lb j last2 y Hj Hy) at 1. cbn [inc].
      rewrite (slice_cons lb j last2 y Hj Hy). reflexivity.
    Qed.

    Lemma includes_impl_ra_ok d : forall first1 s len,
      1 <= len -> first1 + len <= last1 -> wf s -> Nat.log2_up len < d ->
      exists s', includes_impl_ra lt_ab lt_ba d la lb first1 s last2 len = Ok s' /\ wf s' /\
        G s' (first1 + len) = G s first1.
    Proof.
      induction d as [|d IH]; intros first1 s len Hlen Hf [Hw1 Hw2] Hd; [lia|].
      cbn [includes_impl_ra].
      destruct s as [it b]. cbn [fst snd] in *.
      destruct b; cbn [orb].
      { exists (it, true). split; [reflexivity|]. split; [now split|]. reflexivity. }
      destruct (it =? last2) eqn:E; nb.
      { exists (it, false). split; [reflexivity|]. split; [now split|].
        unfold G. cbn [fst snd]. rewrite (slice_nil lb it) by lia. now rewrite !inc_nil. }
      destruct (len =? 1) eqn:E1; nb.
      - subst len. destruct (rd_ex la first1 ltac:(lia)) as (x&Hx&Rx).
        destruct (rd_ex lb it ltac:(lia)) as (y&Hy&Ry). rewrite Rx, Ry. cbn [bind].
        eexists. split; [reflexivity|].
        unfold G. cbn [fst snd]. rewrite (inc_step first1 it x y) by (auto; lia).
        replace (first1 + 1) with (S first1) by lia.
        destruct (lt_ba y x); cbn [fst snd].
        + split; [split; cbn [fst snd]; [lia|intros _; lia]|reflexivity].
        + destruct (lt_ab x y); (split; [split; cbn [fst snd]; [lia|discriminate]|reflexivity]).
      - pose proof (log2_half len ltac:(lia)). pose proof (log2_half' len ltac:(lia)).
        destruct (IH first1 (it, false) (len / 2)) as (s1&E2&W1&G1); [lia|lia|now split|lia|].
        rewrite E2. cbn [bind].
        destruct (IH (first1 + len / 2) s1 (len - len / 2)) as (s2&E3&W2&G2); [lia|lia|exact W1|lia|].
        exists s2. split; [exact E3|]. split; [exact W2|].
        rewrite <- G1, <- G2. f_equal. lia.
    Qed.

    Definition inc_stop (s : nat * nat) := (snd s =? last2) || (fst s =? last1).
    Definition inc_one (s : nat * nat) : res (nat * nat) :=
      y <- rd lb (snd s) ;; x <- rd la (fst s) ;;
          Ok (if lt_ba y x then (last1, snd s)
              else (S (fst s), if lt_ab x y then snd s else S (snd s))).

    Lemma includes_impl_1_dbl d : forall m s,
      includes_impl_1 lt_ab lt_ba d la lb s last1 last2 (2 ^ m) = dbl_1 (stop inc_stop) inc_one d s (2 ^ m).
    Proof.
      induction d as [|d IH]; intros m s; [reflexivity|].
      cbn [includes_impl_1 dbl_1]. unfold stop at 1. unfold inc_stop at 1.
      destruct ((snd s =? last2) || (fst s =? last1)) eqn:E; cbn [bind].
      - destruct (2 ^ m =? 1); reflexivity.
      - destruct m as [|m].
        + reflexivity.
        + assert (Hp : 2 ^ m <> 0) by (apply Nat.pow_nonzero; lia).
          rewrite Nat.pow_succ_r'.
          replace (2 * 2 ^ m - 2 * 2 ^ m / 2) with (2 ^ m) by lia.
          replace (2 * 2 ^ m / 2) with (2 ^ m) by lia.
          destruct (2 * 2 ^ m =? 1) eqn:E1; nb; [lia|].
          rewrite IH. destruct (dbl_1 _ _ d s (2 ^ m)); cbn [bind]; [apply IH|reflexivity..].
    Qed.

    Lemma includes_impl_dbl d : forall m s,
      includes_impl lt_ab lt_ba d la lb s last1 last2 (2 ^ m) = dbl (stop inc_stop) inc_one d s (2 ^ m).
    Proof.
      induction d as [|d IH]; intros m s; [reflexivity|].
      cbn [includes_impl dbl]. unfold stop at 1. unfold inc_stop at 1.
      destruct ((snd s =? last2) || (fst s =? last1)) eqn:E; cbn [bind]; [reflexivity|].
      rewrite includes_impl_1_dbl. destruct (dbl_1 _ _ d s (2 ^ m)); cbn [bind]; [|reflexivity..].
      replace (2 ^ m * 2) with (2 ^ S m) by (rewrite Nat.pow_succ_r'; lia). apply IH.
    Qed.

    Lemma includes_in_ok d first1 first2 : first1 <= last1 -> first2 <= last2 ->
      depth_bound (last1 - first1) <= d ->
      exists i j, includes_impl lt_ab lt_ba d la lb (first1, first2) last1 last2 1 = Ok (i, j) /\
        (j =? last2) = inc (slice la first1 last1) (slice lb first2 last2).
    Proof.
      intros H1 H2 Hd.
      destruct (loop_inv inc_stop inc_one
        (fun s => first1 <= fst s <= last1 /\ first2 <= snd s <= last2 /\
           inc (slice la (fst s) last1) (slice lb (snd s) last2) =
           inc (slice la first1 last1) (slice lb first2 last2))
        (fun s => last1 - fst s)) with (k := S (last1 - first1)) (s := (first1, first2))
        as ([i j]&Hl&(Hi&Hj&HI)&Hb).
      - intros [i j] (Hi&Hj&HI) Hb. unfold inc_stop, inc_one in *. cbn [fst snd] in *.
        apply orb_false_iff in Hb. destruct Hb as [Hb1 Hb2]. nb.
        destruct (rd_ex la i ltac:(lia)) as (x&Hx&Rx).
        destruct (rd_ex lb j ltac:(lia)) as (y&Hy&Ry). rewrite Rx, Ry. cbn [bind].
        eexists. split; [reflexivity|].
        rewrite (inc_step i j x y) in HI by (auto; lia).
        destruct (lt_ba y x); cbn [fst snd].
        + split; [|lia]. split; [lia|]. split; [lia|]. rewrite <- HI.
          rewrite slice_nil by lia. rewrite (slice_cons lb j last2 y) by (auto; lia). reflexivity.
        + destruct (lt_ab x y); (split; [|lia]); (split; [lia|]); (split; [lia|exact HI]).
      - cbn. repeat split; lia.
      - cbn. lia.
      - exists i, j. split.
        + change 1 with (2 ^ 0). rewrite includes_impl_dbl. 
          eapply dbl_stop_correct; [exact Hl|now apply depth_dbl].
        + cbn [fst snd] in *. rewrite <- HI. unfold inc_stop in Hb. cbn [fst snd] in Hb.
          destruct (j =? last2) eqn:E; nb.
          * subst j. rewrite (slice_nil lb) by lia. now rewrite inc_nil.
          * cbn in Hb. nb. subst i. rewrite slice_nil by lia.
            destruct (nth_error_ex lb j ltac:(lia)) as [y Hy].
            rewrite (slice_cons lb j last2 y) by (auto; lia). reflexivity.
    Qed.
  End Ranges.

  Lemma includes_inc c d la lb first1 last1 first2 last2 :
    valid la first1 last1 -> valid lb first2 last2 -> depth_bound (last1 - first1) <= d ->
    includes lt_ab lt_ba c d la lb first1 last1 first2 last2 =
      Ok (inc (slice la first1 last1) (slice lb first2 last2)).
  Proof.
    intros [V1 V2] [V3 V4] Hd. unfold includes. destruct c.
    - destruct (first1 =? last1) eqn:E; nb.
      + subst last1. rewrite slice_nil by lia. destruct (first2 =? last2) eqn:E2; nb.
        * rewrite slice_nil by lia. reflexivity.
        * destruct (nth_error_ex lb first2 ltac:(lia)) as [y Hy].
          rewrite (slice_cons lb first2 last2 y) by (auto; lia). reflexivity.
      + destruct (includes_impl_ra_ok la lb last1 last2 V2 V4 d first1 (first2, false) (last1 - first1))
          as (s&Es&[Hw1 Hw2]&HG); [lia|lia|split; cbn; [lia|discriminate]|now apply depth_ra|].
        rewrite Es. cbn [bind]. f_equal. unfold G in HG. cbn [fst snd] in HG. rewrite <- HG.
        replace (first1 + (last1 - first1)) with last1 by lia.
        destruct s as [it b]. cbn [fst snd] in *. destruct b.
        * specialize (Hw2 eq_refl). destruct (it =? last2) eqn:E2; nb; [lia|reflexivity].
        * rewrite (slice_nil la) by lia. destruct (it =? last2) eqn:E2; nb.
          { rewrite slice_nil by lia. reflexivity. }
          destruct (nth_error_ex lb it ltac:(lia)) as [y Hy].
          rewrite (slice_cons lb it last2 y) by (auto; lia). reflexivity.
    - destruct (first2 =? last2) eqn:E; nb.
      + rewrite (slice_nil lb) by lia. now rewrite inc_nil.
      + destruct (includes_in_ok la lb last1 last2 V2 V4 d first1 first2 V1 V3 Hd) as (i&j&Ej&Hj).
        rewrite Ej. cbn [bind snd]. now rewrite Hj.
  Qed.
End Incl.

Section InclSpec.
  Context {A : Type} (comp : A -> A -> bool) (W : strict_weak_order comp).

  Lemma equiv_to_refl z : equiv_to comp z z = true.
  Proof. unfold equiv_to. now rewrite (swo_irr comp W). Qed.

  Lemma equiv_to_iff z x : equiv_to comp z x = true <-> comp z x = false /\ comp x z = false.
  Proof. unfold equiv_to. destruct (comp z x), (comp x z); cbn; intuition congruence. Qed.

  Lemma inc_spec xs : forall ys, ssorted comp xs -> ssorted comp ys ->
    inc comp comp xs ys = true <->
    forall z, occurrences (equiv_to comp z) ys <= occurrences (equiv_to comp z) xs.
  Proof.
    induction xs as [|x xs IH]; intros [|y ys] HX HY; cbn [inc].
    - split; [intros _ z; reflexivity|reflexivity].
    - split; [discriminate|]. intros H. specialize (H y).
      rewrite occurrences_cons, equiv_to_refl in H. cbn in H. lia.
    - split; [|reflexivity]. intros _ z. cbn. lia.
    - inversion HX as [|? ? HX' HFX]; subst. inversion HY as [|? ? HY' HFY]; subst.
      rewrite Forall_forall in HFX, HFY. unfold leq in HFX, HFY.
      destruct (comp y x) eqn:E1.
      + split; [discriminate|]. intros H. specialize (H y).
        rewrite occurrences_cons, equiv_to_refl in H.
        assert (HZ : occurrences (equiv_to comp y) (x :: xs) = 0).
        { apply occurrences_0. intros x' [<-|Hx'].
          - unfold equiv_to. now rewrite E1.
          - unfold equiv_to. destruct (comp y x') eqn:E; [reflexivity|].
            destruct (swo_split comp W _ x' _ E1) as [H1|H1]; [congruence|].
            rewrite (HFX x' Hx') in H1. discriminate. }
        lia.
      + destruct (comp x y) eqn:E2.
        * rewrite IH by assumption. split; intros H z; specialize (H z).
          { rewrite (occurrences_cons _ x). lia. }
          rewrite (occurrences_cons _ x) in H.
          destruct (equiv_to comp z x) eqn:Ez; [|lia].
          apply equiv_to_iff in Ez. destruct Ez as [Ez1 Ez2].
          assert (HZ : occurrences (equiv_to comp z) (y :: ys) = 0).
          { assert (Hzy : comp z y = true).
            { destruct (swo_split comp W _ z _ E2) as [H1|H1]; congruence. }
            apply occurrences_0. intros y' [<-|Hy'].
            - unfold equiv_to. now rewrite Hzy.
            - unfold equiv_to. destruct (comp z y') eqn:E; [reflexivity|].
              destruct (swo_split comp W _ y' _ Hzy) as [H1|H1]; [congruence|].
              rewrite (HFY y' Hy') in H1. discriminate. }
          lia.
        * rewrite IH by assumption.
          assert (HZ : forall z, equiv_to comp z x = equiv_to comp z y).
          { intros z. apply eq_true_iff_eq. rewrite !equiv_to_iff.
            split; intros [H1 H2]; split; eapply (swo_neg comp W); eauto. }
          split; intros H z; specialize (H z); rewrite ?occurrences_cons, HZ in *; 
            destruct (equiv_to comp z y); lia.
  Qed.

  Lemma includes_correct_lemma c d la lb first1 last1 first2 last2 :
    valid la first1 last1 -> valid lb first2 last2 -> depth_bound (last1 - first1) <= d ->
    sorted_range comp la first1 last1 -> sorted_range comp lb first2 last2 ->
    exists b, includes comp comp c d la lb first1 last1 first2 last2 = Ok b /\
      (b = true <-> forall z, occurrences (equiv_to comp z) (slice lb first2 last2)
                              <= occurrences (equiv_to comp z) (slice la first1 last1)).
  Proof.
    intros V1 V2 Hd S1 S2. rewrite includes_inc by assumption.
    eexists. split; [reflexivity|].
    apply inc_spec; now apply sorted_range_slice.
  Qed.
End InclSpec.

(** ** is_permutation *)
Section Perm.
  Context {A : Type} (eqb : A -> A -> bool).
  Hypothesis Heq : forall x y, eqb x y = true <-> x = y.
  Implicit Types l : list A.

  Lemma eqb_refl' x : eqb x x = true.
  Proof. now apply Heq. Qed.

  Notation occ x := (occurrences (fun y => eqb y x)).

  Lemma perm_counts xs : forall ys, length xs = length ys ->
    (forall x, In x xs -> occ x xs = occ x ys) -> Permutation xs ys.
  Proof.
    induction xs as [|x xs IH]; intros ys HL H.
    - destruct ys; [constructor|discriminate].
    - assert (H1 : 1 <= occ x ys).
      { rewrite <- H by now left. rewrite occurrences_cons, eqb_refl'. lia. }
      apply occurrences_pos in H1. destruct H1 as (x'&Hin&He). apply Heq in He. subst x'.
      destruct (in_split _ _ Hin) as (a&b&->).
      apply Permutation_cons_app. apply IH.
      + rewrite app_length in *. cbn in HL. lia.
      + intros z Hz. specialize (H z ltac:(now right)).
        rewrite occurrences_app, !occurrences_cons in H. rewrite occurrences_app. lia.
  Qed.

  Section Test.
    Variables (l1 l2 : list A) (c : bool) (d2 first1 last1 first2 last2 : nat).
    Hypothesis V1 : valid l1 first1 last1.
    Hypothesis V2 : valid l2 first2 last2.
    Hypothesis Hd1 : depth_bound (last1 - first1) <= d2.
    Hypothesis Hd2 : depth_bound (last2 - first2) <= d2.

    Notation X := (slice l1 first1 last1).
    Notation Y := (slice l2 first2 last2).

    Lemma perm_test_ok i : first1 <= i < last1 ->
      exists b, is_permutation_test eqb c d2 l1 l2 first1 last1 first2 last2 i = Ok b /\
        (forall x, nth_error l1 i = Some x ->
          (b = true <-> In x (slice l1 first1 i) \/ occ x X = occ x Y)).
    Proof.
      destruct V1 as [V1a V1b], V2 as [V2a V2b].
      intros Hi. unfold is_permutation_test.
      destruct (rd_ex l1 i ltac:(lia)) as (x&Hx&Rx). rewrite Rx. cbn [bind].
      destruct (find_if_correct_lemma c d2 l1 first1 i (fun y => eqb y x)) as (f&Ef&Hf1&Hf2&Hf3).
      { split; lia. } { etransitivity; [apply depth_mono|exact Hd1]. lia. }
      rewrite Ef. cbn [bind].
      destruct (f =? i) eqn:E; nb; cbn [negb].
      - subst f.
        assert (Hno : ~ In x (slice l1 first1 i)).
        { intros Hin. apply in_slice in Hin. destruct Hin as (k&Hk&Hxk).
          apply (Hf2 k); [lia|]. exists x. split; [exact Hxk|]. apply eqb_refl'. }
        rewrite count_if_cnt by (auto; split; lia). cbn [bind].
        rewrite cnt_occurrences by lia. replace (first2 + (last2 - first2)) with last2 by lia.
        assert (HX : occ x X = S (occ x (slice l1 (S i) last1))).
        { rewrite (slice_app l1 first1 i last1) by lia.
          rewrite (slice_cons l1 i last1 x) by (auto; lia).
          rewrite occurrences_app, occurrences_cons, eqb_refl'.
          rewrite (occurrences_0 _ (slice l1 first1 i)); [reflexivity|].
          intros y Hy. destruct (eqb y x) eqn:Eq; [|reflexivity].
          apply Heq in Eq. subst y. contradiction. }
        destruct (occ x Y =? 0) eqn:E0; nb.
        + exists false. split; [reflexivity|]. intros x' Hx'. assert (x' = x) by congruence. subst x'.
          split; [discriminate|]. intros [H|H]; [contradiction|lia].
        + rewrite count_if_cnt.
          2: { split; lia. }
          2: { etransitivity; [apply depth_mono|exact Hd1]. lia. }
          cbn [bind]. rewrite cnt_occurrences by lia.
          replace (S i + (last1 - S i)) with last1 by lia.
          eexists. split; [reflexivity|]. intros x' Hx'. assert (x' = x) by congruence. subst x'.
          rewrite Nat.eqb_eq. split; [intros H; right; lia|]. intros [H|H]; [contradiction|lia].
      - exists true. split; [reflexivity|]. intros x' Hx'. assert (x' = x) by congruence. subst x'.
        split; [intros _|reflexivity]. left. destruct (Hf3 ltac:(lia)) as (y&Hy&Hq).
        apply Heq in Hq. subst y. apply in_slice. exists f. split; [lia|exact Hy].
    Qed.

    Definition tb i : bool :=
      match is_permutation_test eqb c d2 l1 l2 first1 last1 first2 last2 i with Ok b => b | _ => false end.

    Lemma tb_ok i : first1 <= i < last1 ->
      is_permutation_test eqb c d2 l1 l2 first1 last1 first2 last2 i = Ok (tb i).
    Proof.
      intros Hi. unfold tb. destruct (perm_test_ok i Hi) as (b&E&_). now rewrite E.
    Qed.

    Lemma all_tb : length X = length Y ->
      forallb tb (seq first1 (last1 - first1)) = true <-> Permutation X Y.
    Proof.
      destruct V1 as [V1a V1b], V2 as [V2a V2b]. intros HL.
      rewrite forallb_seq_iff. replace (first1 + (last1 - first1)) with last1 by lia.
      split.
      - intros H. apply perm_counts; [exact HL|].
        assert (HI : forall i, first1 <= i <= last1 ->
          forall x, In x (slice l1 first1 i) -> occ x X = occ x Y).
        { intros i. induction i as [|i IH]; intros Hi x Hin.
          - rewrite slice_nil in Hin by lia. destruct Hin.
          - destruct (Nat.eq_dec first1 (S i)) as [He|Hne].
            { rewrite slice_nil in Hin by lia. destruct Hin. }
            destruct (nth_error_ex l1 i ltac:(lia)) as [y Hy].
            rewrite (slice_snoc l1 first1 i y) in Hin by (auto; lia).
            apply in_app_iff in Hin. destruct Hin as [Hin|[->|[]]]; [apply IH; auto; lia|].
            specialize (H i ltac:(lia)). unfold tb in H.
            destruct (perm_test_ok i ltac:(lia)) as (b&E&Hb). rewrite E in H.
            apply (Hb x Hy) in H. destruct H as [H|H]; [|exact H]. apply IH; auto; lia. }
        intros x Hx. apply (HI last1); [lia|exact Hx].
      - intros HP i Hi. unfold tb.
        destruct (perm_test_ok i ltac:(lia)) as (b&E&Hb). rewrite E.
        destruct (nth_error_ex l1 i ltac:(lia)) as [x Hx].
        apply (Hb x Hx). right. now apply occurrences_perm.
    Qed.

    Lemma perm_impl_ra_ok d : forall cur size, 1 <= size -> first1 <= cur -> cur + size <= last1 ->
      Nat.log2_up size < d ->
      is_permutation_impl_ra eqb d c d2 l1 l2 first1 last1 first2 last2 cur size =
        Ok (forallb tb (seq cur size)).
    Proof.
      induction d as [|d IH]; intros cur size Hs H1 H2 Hd; [lia|].
      cbn [is_permutation_impl_ra]. destruct (size =? 1) eqn:E; nb.
      - subst size. rewrite tb_ok by lia. cbn. now rewrite andb_true_r.
      - pose proof (log2_half size ltac:(lia)). pose proof (log2_half' size ltac:(lia)).
        rewrite IH by lia. cbn [bind].
        replace (seq cur size) with (seq cur (size / 2 + (size - size / 2))) by (f_equal; lia).
        rewrite seq_app, forallb_app. destruct (forallb tb (seq cur (size / 2))); [|reflexivity].
        rewrite IH by lia. reflexivity.
    Qed.

    Lemma perm_impl_1_ok d : 1 <= last1 - first1 -> depth_bound (last1 - first1) <= d ->
      exists k, is_permutation_impl_1 eqb d c d2 l1 l2 first1 last1 first2 last2 (first1, true) (last1 - first1)
        = Ok (k, forallb tb (seq first1 (last1 - first1))).
    Proof.
      intros Hn Hd. unfold is_permutation_impl_1.
      edestruct loop_all with (t := tb) (i := first1) (n := last1 - first1) (last := last1) as (k&Hl); [lia| |].
      2: { exists k. eapply dbl_1_stop_correct; [exact Hl|lia|lia|now apply depth_ra]. }
      intros j Hj. cbn [fst]. rewrite tb_ok by lia. reflexivity.
    Qed.
  End Test.

  Lemma prefix_slices l1 l2 first1 first2 r : first1 <= r -> r <= length l1 ->
    first2 + (r - first1) <= length l2 ->
    (forall j, first1 <= j < r -> rel eqb l1 j l2 (first2 + (j - first1))) ->
    slice l1 first1 r = slice l2 first2 (first2 + (r - first1)).
  Proof.
    intros H1 H2 H3 H. apply slice_eq; [exact H2|exact H3|].
    intros i Hi. destruct (H (first1 + i) ltac:(lia)) as (x&y&Hx&Hy&He).
    apply Heq in He. subst y. replace (first1 + i - first1) with i in Hy by lia. congruence.
  Qed.

  Lemma relb_not_not l1 i l2 j : ~ ~ rel eqb l1 i l2 j -> rel eqb l1 i l2 j.
  Proof. rewrite <- relb_rel. destruct (relb eqb l1 i l2 j); [auto|]. intros H. exfalso. apply H. discriminate. Qed.

  Lemma is_permutation_correct_lemma c c2 d d2 l1 l2 first1 last1 first2 :
    valid l1 first1 last1 -> first2 + (last1 - first1) <= length l2 ->
    depth_bound (last1 - first1) <= d -> depth_bound (last1 - first1) <= d2 ->
    exists b, is_permutation eqb c c2 d d2 l1 l2 first1 last1 first2 = Ok b /\
      (b = true <-> Permutation (slice l1 first1 last1) (slice l2 first2 (first2 + (last1 - first1)))).
  Proof.
    intros V HL2 Hd Hd2. unfold is_permutation.
    destruct (mismatch_correct_lemma eqb c d l1 l2 first1 last1 first2 V HL2 Hd) as (r&Er&Hr1&Hr2&Hr3).
    destruct V as [V1 V2].
    rewrite Er. cbn [bind].
    assert (HP : slice l1 first1 r = slice l2 first2 (first2 + (r - first1))).
    { apply prefix_slices; [lia..|]. intros j Hj. apply relb_not_not, Hr2. lia. }
    rewrite (slice_app l1 first1 r last1) by lia.
    rewrite (slice_app l2 first2 (first2 + (r - first1))) by lia. rewrite <- HP.
    set (m2 := first2 + (r - first1)) in *.
    replace (first2 + (last1 - first1)) with (m2 + (last1 - r)) by lia.
    assert (HPA : forall X Y, Permutation (slice l1 first1 r ++ X) (slice l1 first1 r ++ Y) <-> Permutation X Y).
    { intros X Y. split; [apply Permutation_app_inv_l|apply Permutation_app_head]. }
    destruct (r =? last1) eqn:E; nb.
    { exists true. split; [reflexivity|]. rewrite HPA.
      split; [intros _|reflexivity]. rewrite !slice_nil by lia. constructor. }
    assert (V1' : valid l1 r last1) by (split; lia).
    assert (V2' : valid l2 m2 (m2 + (last1 - r))) by (split; lia).
    assert (D1 : depth_bound (last1 - r) <= d2) by (etransitivity; [apply depth_mono|exact Hd2]; lia).
    assert (D2 : depth_bound (m2 + (last1 - r) - m2) <= d2) by (etransitivity; [apply depth_mono|exact Hd2]; lia).
    assert (D3 : depth_bound (last1 - r) <= d) by (etransitivity; [apply depth_mono|exact Hd]; lia).
    pose proof (all_tb l1 l2 c2 d2 r last1 m2 (m2 + (last1 - r)) V1' V2' D1 D2) as HT.
    rewrite !slice_length in HT by lia. specialize (HT ltac:(lia)).
    destruct c.
    - rewrite perm_impl_ra_ok by (auto; try lia; now apply depth_ra).
      eexists. split; [reflexivity|]. now rewrite HPA.
    - destruct (perm_impl_1_ok l1 l2 c2 d2 r last1 m2 (m2 + (last1 - r)) V1' V2' D1 D2 d ltac:(lia) D3) as (k&Ek).
      rewrite Ek. cbn [bind snd].
      eexists. split; [reflexivity|]. now rewrite HPA.
  Qed.

  Lemma is_permutation2_correct_lemma c c2 d d2 l1 l2 first1 last1 first2 last2 :
    valid l1 first1 last1 -> valid l2 first2 last2 ->
    depth_bound (last1 - first1) <= d -> depth_bound (last1 - first1) <= d2 ->
    exists b, is_permutation2 eqb c c2 d d2 l1 l2 first1 last1 first2 last2 = Ok b /\
      (b = true <-> Permutation (slice l1 first1 last1) (slice l2 first2 last2)).
  Proof.
    intros V V' Hd Hd2. unfold is_permutation2.
    destruct (mismatch2_correct_lemma eqb c d l1 l2 first1 last1 first2 last2 V V' Hd) as (r&Er&Hr1&Hr2&Hr3).
    destruct V as [V1 V2], V' as [V3 V4].
    assert (HLen : last1 - first1 <> last2 - first2 ->
      ~ Permutation (slice l1 first1 last1) (slice l2 first2 last2)).
    { intros Hne HP. apply Permutation_length in HP. rewrite !slice_length in HP by lia. lia. }
    rewrite Er. cbn [bind].
    assert (HP : slice l1 first1 r = slice l2 first2 (first2 + (r - first1))).
    { apply prefix_slices; [lia..|]. intros j Hj. apply relb_not_not, Hr2. lia. }
    destruct (Nat.eq_dec (last1 - first1) (last2 - first2)) as [HeqL|HneL].
    2: { specialize (HLen HneL).
      assert (E1 : (last1 - first1 =? last2 - first2) = false) by (apply Nat.eqb_neq; lia).
      assert (E2 : (last1 - r =? last2 - (first2 + (r - first1))) = false) by (apply Nat.eqb_neq; lia).
      rewrite E1, E2. exists false. split; [destruct c; reflexivity|]. split; [discriminate|contradiction]. }
    assert (E1 : (last1 - first1 =? last2 - first2) = true) by (apply Nat.eqb_eq; lia).
    assert (E2 : (last1 - r =? last2 - (first2 + (r - first1))) = true) by (apply Nat.eqb_eq; lia).
    rewrite E1, E2. clear E1 E2.
    rewrite (slice_app l1 first1 r last1) by lia.
    rewrite (slice_app l2 first2 (first2 + (r - first1))) by lia. rewrite <- HP.
    set (m2 := first2 + (r - first1)) in *.
    assert (HPA : forall X Y, Permutation (slice l1 first1 r ++ X) (slice l1 first1 r ++ Y) <-> Permutation X Y).
    { intros X Y. split; [apply Permutation_app_inv_l|apply Permutation_app_head]. }
    destruct (Nat.eq_dec r last1) as [->|Hrne].
    { exists true. split; [|rewrite HPA; split; [intros _|reflexivity]; rewrite !slice_nil by lia; constructor].
      destruct c; [now rewrite Nat.eqb_refl|].
      unfold is_permutation_impl_1. rewrite Nat.sub_diag.
      destruct d as [|d]; [unfold depth_bound in Hd; lia|].
      cbn [dbl_1]. unfold stop. cbn [fst snd]. rewrite Nat.eqb_refl. cbn. reflexivity. }
    assert (V1' : valid l1 r last1) by (split; lia).
    assert (V2' : valid l2 m2 last2) by (split; lia).
    assert (D1 : depth_bound (last1 - r) <= d2) by (etransitivity; [apply depth_mono|exact Hd2]; lia).
    assert (D2 : depth_bound (last2 - m2) <= d2) by (etransitivity; [apply depth_mono|exact Hd2]; lia).
    assert (D3 : depth_bound (last1 - r) <= d) by (etransitivity; [apply depth_mono|exact Hd]; lia).
    pose proof (all_tb l1 l2 c2 d2 r last1 m2 last2 V1' V2' D1 D2) as HT.
    rewrite !slice_length in HT by lia. specialize (HT ltac:(lia)).
    destruct c.
    - destruct (r =? last1) eqn:E; nb; [lia|].
      rewrite perm_impl_ra_ok by (auto; try lia; now apply depth_ra).
      eexists. split; [reflexivity|]. now rewrite HPA.
    - destruct (perm_impl_1_ok l1 l2 c2 d2 r last1 m2 last2 V1' V2' D1 D2 d ltac:(lia) D3) as (k&Ek).
      rewrite Ek. cbn [bind snd].
      eexists. split; [reflexivity|]. now rewrite HPA.
  Qed.
End Perm.
