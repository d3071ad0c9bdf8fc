(** Proofs about alternate_iterator, insert_range_iterator, step_iterator and the slices. *)
From Coq Require Import List Arith Bool ZArith Lia ZifyBool ZifyNat.
From Verif Require Import Base SearchModel ItModel ItSpec ItProof OrderSpec.
Import ListNotations.
Open Scope Z_scope.

Lemma half i : exists q (e : bool), i = (2 * q + (if e then 0 else 1))%nat /\ Nat.div2 i = q /\ Nat.even i = e.
Proof.
  exists (Nat.div2 i), (Nat.even i). split; [| auto].
  pose proof (Nat.div2_odd i) as H. rewrite <- Nat.negb_even in H.
  destruct (Nat.even i); cbn [negb Nat.b2n] in H; lia.
Qed.

Ltac ok3 := match goal with
  | |- Ok (?a, ?b, _) = Ok (?a', ?b', _) => replace a with a' by lia; replace b with b' by lia; reflexivity
  | |- (?a, ?b, _) = (?a', ?b', _) => replace a with a' by lia; replace b with b' by lia; reflexivity
  end.

(** ** alternate_iterator *)
Section AlternateP.
  Context {A : Type}.
  Variables l1 l2 : list A.
  Notation xs := (interleave l1 l2).
  Notation m := (Nat.min (length l1) (length l2)).
  Definition alf (i : nat) : alt := (Z.of_nat (Nat.div2 i), Z.of_nat (Nat.div2 i), Nat.even i).

  Lemma interleave_length : length xs = (2 * m)%nat.
  Proof using.
    revert l2. induction l1 as [|x a IH]; intros [|y b]; try reflexivity.
    cbn [interleave length]. rewrite IH. lia.
  Qed.

  Lemma interleave_nth q (e : bool) : nth_error xs (2 * q + (if e then 0 else 1)) =
    if (q <? m)%nat then nth_error (if e then l1 else l2) q else None.
  Proof using.
    revert l2 q. induction l1 as [|x a IH]; intros [|y b] q; cbn [interleave length].
    - destruct (_ + _)%nat; reflexivity.
    - destruct (_ + _)%nat; reflexivity.
    - destruct (_ + _)%nat; reflexivity.
    - destruct q as [|q]; [destruct e; reflexivity |].
      replace (2 * S q + (if e then 0 else 1))%nat with (S (S (2 * q + (if e then 0 else 1)))) by lia.
      cbn [nth_error]. rewrite IH. cbn [Nat.min]. destruct e; reflexivity.
  Qed.

  Lemma alf_eq q e : alf (2 * q + (if e : bool then 0 else 1)) = (Z.of_nat q, Z.of_nat q, e).
  Proof using.
    unfold alf. destruct (half (2 * q + (if e then 0 else 1))) as (q' & e' & E & -> & ->).
    destruct e, e'; cbn in E; try lia; ok3.
  Qed.

  Lemma alf_even q : alf (2 * q) = (Z.of_nat q, Z.of_nat q, true).
  Proof using. rewrite <- (Nat.add_0_r (2 * q)). exact (alf_eq q true). Qed.
  Lemma alf_odd q : alf (2 * q + 1) = (Z.of_nat q, Z.of_nat q, false).
  Proof using. exact (alf_eq q false). Qed.

  Lemma alf_S i : alf (S i) = let '(a, b, e) := alf i in
    if e : bool then (a, b, false) else (a + 1, b + 1, true).
  Proof using.
    destruct (half i) as (q & e & -> & _). rewrite alf_eq. destruct e.
    - replace (S (2 * q + 0)) with (2 * q + 1)%nat by lia. apply alf_odd.
    - replace (S (2 * q + 1)) with (2 * S q)%nat by lia. rewrite alf_even.
      ok3.
  Qed.

  Lemma alf_next i : (i < length xs)%nat -> al_next l1 l2 (alf i) = Ok (alf (S i)).
  Proof using.
    rewrite interleave_length. intros H. rewrite alf_S. destruct (half i) as (q & e & -> & _).
    rewrite alf_eq. unfold al_next, len. destruct e; [reflexivity |].
    rewrite !mv_ok by lia. reflexivity.
  Qed.

  Lemma alf_deref i x : nth_error xs i = Some x -> al_deref l1 l2 (alf i) = Ok x.
  Proof using.
    destruct (half i) as (q & e & -> & _). rewrite interleave_nth, alf_eq.
    destruct (q <? m)%nat eqn:Q; [| discriminate].
    unfold al_deref. destruct e; intros H; apply get_ok with q; auto.
  Qed.

  Lemma al_end_eq : al_end l1 l2 = Ok (alf (length xs)).
  Proof using.
    rewrite interleave_length, alf_even. unfold al_end, len. rewrite !mv_ok by lia. cbn [bind]. ok3.
  Qed.

  Lemma alternate_traverses_lemma : exists e, al_end l1 l2 = Ok e /\
    traverses (ok (al_next l1 l2)) (ok (al_deref l1 l2)) al_eq al_begin e xs /\
    retreats (ok (al_next l1 l2)) (ok (al_prev l1 l2)) al_begin xs /\
    ordered (ok (al_next l1 l2)) al_lt al_gt al_le al_ge al_begin xs.
  Proof using.
    exists (alf (length xs)). split; [apply al_end_eq |]. change al_begin with (alf 0). split; [| split].
    - apply traverses_f; [exact alf_next | exact alf_deref |].
      intros i j Hi Hj. destruct (half i) as (q & e & -> & _), (half j) as (q' & e' & -> & _).
      rewrite !alf_eq. unfold al_eq. destruct e, e'; cbn [Bool.eqb]; lia.
    - apply retreats_f; [exact alf_next |]. intros i Hi. rewrite interleave_length in Hi.
      rewrite alf_S. destruct (half i) as (q & e & -> & _). rewrite alf_eq. unfold al_prev, len.
      destruct e; [reflexivity |]. rewrite !mv_ok by lia. cbn [bind]. ok3.
    - intros i j s t Hi Hj Hs Ht. apply (after_inv _ _ _ alf_next) in Hs, Ht; auto. subst.
      destruct (half i) as (q & e & -> & _), (half j) as (q' & e' & -> & _).
      rewrite !alf_eq. unfold al_ge, al_le, al_gt, al_lt. destruct e, e'; cbn [andb negb]; repeat split; lia.
  Qed.

  Lemma alternated_lemma k : (2 * m < k)%nat ->
    alternated l1 l2 k = Ok xs /\ alternated_back l1 l2 k = Ok (rev xs).
  Proof using.
    rewrite <- interleave_length. intros H. destruct alternate_traverses_lemma as (e & E & T & R & _).
    unfold alternated, alternated_back. rewrite E. cbn [bind]. split.
    - apply (walk_lemma _ _ _ _ _ _ _ T H).
    - apply (walk_back_lemma _ _ _ _ _ _ _ _ T R H).
  Qed.

  Lemma alf_plus i j : (i <= 2 * m)%nat -> (j <= 2 * m)%nat ->
    al_plus l1 l2 (alf i) (Z.of_nat j - Z.of_nat i) =
    Ok (alf (if (j <? i)%nat && Nat.odd j then j + 2 else j)).
  Proof using.
    intros Hi Hj. destruct (half i) as (q & e & Ei & _ & _), (half j) as (q' & e' & Ej & _ & Hev).
    rewrite <- Nat.negb_even, Hev.
    assert (M : Z.of_nat j - Z.of_nat i + (if e then 0 else 1) = 2 * (Z.of_nat q' - Z.of_nat q) + (if e' then 0 else 1))
      by (destruct e, e'; lia).
    rewrite Ei, alf_eq. rewrite <- Ei. unfold al_plus, len. rewrite M. clear M.
    destruct e'; cbn [negb].
    - rewrite andb_false_r.
      replace (2 * (Z.of_nat q' - Z.of_nat q) + 0) with ((Z.of_nat q' - Z.of_nat q) * 2) by lia.
      rewrite Z.quot_mul, Z.rem_mul by lia.
      rewrite !mv_ok by lia. cbn [bind]. rewrite Ej, Nat.add_0_r, alf_even. ok3.
    - rewrite andb_true_r. destruct (j <? i)%nat eqn:L.
      + assert (Q : Z.quot (2 * (Z.of_nat q' - Z.of_nat q) + 1) 2 = Z.of_nat q' - Z.of_nat q + 1)
          by (destruct e; lia).
        assert (R : Z.rem (2 * (Z.of_nat q' - Z.of_nat q) + 1) 2 = -1) by (destruct e; lia).
        rewrite Q, R. rewrite !mv_ok by (destruct e; lia). cbn [bind].
        replace (j + 2)%nat with (2 * (S q') + 1)%nat by lia. rewrite alf_odd.
        cbn [Z.eqb]. ok3.
      + assert (Q : Z.quot (2 * (Z.of_nat q' - Z.of_nat q) + 1) 2 = Z.of_nat q' - Z.of_nat q)
          by (destruct e; lia).
        assert (R : Z.rem (2 * (Z.of_nat q' - Z.of_nat q) + 1) 2 = 1) by (destruct e; lia).
        rewrite Q, R. rewrite !mv_ok by (destruct e; lia). cbn [bind].
        rewrite Ej, alf_odd. cbn [Z.eqb]. ok3.
  Qed.

  Lemma alternate_plus_lemma i j s : (i <= 2 * m)%nat -> (j <= 2 * m)%nat ->
    after (ok (al_next l1 l2)) al_begin i s ->
    exists t, al_plus l1 l2 s (Z.of_nat j - Z.of_nat i) = Ok t /\
      al_minus l1 l2 s (Z.of_nat i - Z.of_nat j) = Ok t /\
      if (j <? i)%nat && Nat.odd j
      then (forall u, after (ok (al_next l1 l2)) al_begin j u -> al_eq t u = false)
      else after (ok (al_next l1 l2)) al_begin j t /\
           (forall x, nth_error xs j = Some x -> al_sub l1 l2 s (Z.of_nat j - Z.of_nat i) = Ok x).
  Proof using.
    rewrite <- interleave_length. intros Hi Hj Hs. change al_begin with (alf 0) in *.
    apply (after_inv _ _ _ alf_next) in Hs; [subst | exact Hi].
    rewrite interleave_length in Hi. pose proof Hj as Hj'. rewrite interleave_length in Hj'.
    pose proof (alf_plus i j Hi Hj') as P. unfold al_sub, al_minus.
    replace (- (Z.of_nat i - Z.of_nat j)) with (Z.of_nat j - Z.of_nat i) by lia. rewrite P.
    eexists. split; [reflexivity |]. split; [reflexivity |].
    destruct ((j <? i)%nat && Nat.odd j) eqn:B.
    - intros u Hu. apply (after_inv _ _ _ alf_next) in Hu; [subst | exact Hj].
      destruct (half j) as (q & e & -> & _).
      replace (2 * q + (if e then 0 else 1) + 2)%nat with (2 * (S q) + (if e then 0 else 1))%nat by lia.
      rewrite !alf_eq. unfold al_eq. lia.
    - split; [exact (after_f _ _ _ alf_next j Hj) |].
      intros x Hx. cbn [bind]. now apply alf_deref.
  Qed.

  Lemma alternate_difference_lemma i j s t : Z.of_nat (2 * m) <= pmax ->
    (i <= 2 * m)%nat -> (j <= 2 * m)%nat ->
    after (ok (al_next l1 l2)) al_begin i s -> after (ok (al_next l1 l2)) al_begin j t ->
    al_diff t s =
      if (Nat.div2 j + 1 =? Nat.div2 i)%nat then UB
      else Ok (Z.of_nat j - Z.of_nat i + (if Nat.even j && Nat.odd i then 2 else 0)).
  Proof using.
    rewrite <- interleave_length. intros B Hi Hj Hs Ht. change al_begin with (alf 0) in *.
    apply (after_inv _ _ _ alf_next) in Hs, Ht; auto. subst. rewrite interleave_length in *.
    rewrite <- Nat.negb_even.
    destruct (half i) as (q & e & Ei & -> & ->), (half j) as (q' & e' & Ej & -> & ->).
    rewrite Ei, Ej, !alf_eq. unfold al_diff.
    assert (P : pmin = - pmax - 1) by (unfold pmin, pmax; lia).
    assert (P1 : 1 <= 2 <= pmax) by (unfold pmax; lia).
    assert (P2 : pmax = 2 * (2 ^ 62 - 1) + 1) by reflexivity.
    set (h := 2 ^ 62 - 1) in P2. clearbody h.
    destruct (q' + 1 =? q)%nat eqn:Q.
    - rewrite lmultiplies_bad; [reflexivity | exact P | lia |]. unfold bad_factor. lia.
    - rewrite lmultiplies_lemma; [| left; exact P | lia | lia | lia | unfold bad_factor; lia].
      cbn [bind]. assert (S : saturated pmin pmax ((Z.of_nat q' - Z.of_nat q) * 2) = (Z.of_nat q' - Z.of_nat q) * 2)
        by (unfold saturated; lia).
      rewrite S. rewrite lplus_exact; [| lia | lia | destruct e, e'; lia | destruct e, e'; lia].
      f_equal. destruct e, e'; cbn [andb negb]; lia.
  Qed.
End AlternateP.

(** ** insert_range_iterator *)
Section InsertP.
  Context {A : Type}.
  Variables l1 l2 : list A.
  Variable pos : nat.
  Hypothesis Hpos : (pos <= length l1)%nat.
  Notation xs := (firstn pos l1 ++ l2 ++ skipn pos l1).
  Notation n1 := (length l1).
  Notation n2 := (length l2).
  Notation P := (Z.of_nat pos).
  Definition irf (i : nat) : Z * Z :=
    (Z.of_nat (if i <=? pos then i else if i <=? pos + n2 then pos else i - n2)%nat,
     Z.of_nat (Nat.min (i - pos) n2)).

  Lemma ir_length : length xs = (n1 + n2)%nat.
  Proof using Hpos. rewrite !app_length, firstn_length, skipn_length. lia. Qed.

  Lemma irf_base i : ir_in_base l2 P (irf i) = (i <? pos)%nat || (pos + n2 <=? i)%nat.
  Proof using Hpos.
    unfold ir_in_base, irf, len. cbn [fst snd].
    destruct (i <=? pos)%nat eqn:E1; [lia |]. destruct (i <=? pos + n2)%nat eqn:E2; lia.
  Qed.

  Lemma irf_next i : (i < length xs)%nat -> ir_next l1 l2 P (irf i) = Ok (irf (S i)).
  Proof using Hpos.
    rewrite ir_length. intros H. unfold ir_next. rewrite irf_base. unfold irf, len. cbn [fst snd].
    destruct ((i <? pos)%nat || (pos + n2 <=? i)%nat) eqn:B;
      destruct (i <=? pos)%nat eqn:E1, (i <=? pos + n2)%nat eqn:E2,
        (S i <=? pos)%nat eqn:E3, (S i <=? pos + n2)%nat eqn:E4; try lia;
      rewrite mv_ok by lia; cbn [bind]; f_equal; f_equal; lia.
  Qed.

  Lemma irf_deref i x : nth_error xs i = Some x -> ir_deref l1 l2 P (irf i) = Ok x.
  Proof using Hpos.
    intros H. pose proof (nth_error_lt _ _ _ H) as L. rewrite ir_length in L.
    unfold ir_deref. rewrite irf_base. unfold irf. cbn [fst snd].
    destruct (i <? pos)%nat eqn:E1; cbn [orb].
    - rewrite nth_error_app1 in H by (rewrite firstn_length; lia).
      replace (i <=? pos)%nat with true by lia. apply get_ok with i; [reflexivity |].
      rewrite <- (firstn_skipn pos l1), nth_error_app1; [exact H | rewrite firstn_length; lia].
    - rewrite nth_error_app2 in H by (rewrite firstn_length; lia). rewrite firstn_length in H.
      replace (Nat.min pos n1) with pos in H by lia.
      destruct (pos + n2 <=? i)%nat eqn:E2.
      + rewrite nth_error_app2 in H by lia.
        apply get_ok with (i - n2)%nat.
        * destruct (i <=? pos)%nat eqn:E3, (i <=? pos + n2)%nat eqn:E4; lia.
        * rewrite <- (firstn_skipn pos l1), nth_error_app2 by (rewrite firstn_length; lia).
          rewrite firstn_length. replace (i - n2 - Nat.min pos n1)%nat with (i - pos - n2)%nat by lia. exact H.
      + rewrite nth_error_app1 in H by lia. apply get_ok with (i - pos)%nat; [lia | exact H].
  Qed.

  Lemma ir_end_f : ir_end l1 l2 = irf (length xs).
  Proof using Hpos.
    rewrite ir_length. unfold ir_end, irf, len.
    destruct (n1 + n2 <=? pos)%nat eqn:E1, (n1 + n2 <=? pos + n2)%nat eqn:E2; f_equal; lia.
  Qed.

  Lemma insert_traverses_lemma :
    traverses (ok (ir_next l1 l2 P)) (ok (ir_deref l1 l2 P)) ir_eq ir_begin (ir_end l1 l2) xs /\
    retreats (ok (ir_next l1 l2 P)) (ok (ir_prev l1 l2 P)) ir_begin xs /\
    (Z.of_nat (n1 + n2) <= pmax -> measures (ok (ir_next l1 l2 P)) (fun t s d => ir_diff t s = Ok d) ir_begin xs).
  Proof using Hpos.
    rewrite ir_end_f. replace ir_begin with (irf 0) by (unfold ir_begin, irf; cbn; f_equal; lia). split; [| split].
    - apply traverses_f; [exact irf_next | exact irf_deref |].
      intros i j Hi Hj. unfold ir_eq, irf. cbn [fst snd].
      destruct (i <=? pos)%nat eqn:E1, (i <=? pos + n2)%nat eqn:E2,
        (j <=? pos)%nat eqn:E3, (j <=? pos + n2)%nat eqn:E4; lia.
    - apply retreats_f; [exact irf_next |]. rewrite ir_length. intros i Hi.
      unfold ir_prev, irf, len. cbn [fst snd].
      destruct (i <=? pos)%nat eqn:E1, (i <=? pos + n2)%nat eqn:E2,
        (S i <=? pos)%nat eqn:E3, (S i <=? pos + n2)%nat eqn:E4; try lia;
        match goal with |- context[if ?b then _ else _] => destruct b eqn:B end;
        try lia; rewrite mv_ok by lia; cbn [bind]; f_equal; f_equal; lia.
    - intros B i j s t Hi Hj Hs Ht. apply (after_inv _ _ _ irf_next) in Hs, Ht; auto. subst.
      rewrite ir_length in *. unfold ir_diff, irf. cbn [fst snd].
      assert (P1 : pmin = - pmax - 1) by (unfold pmin, pmax; lia).
      destruct (i <=? pos)%nat eqn:E1, (i <=? pos + n2)%nat eqn:E2,
        (j <=? pos)%nat eqn:E3, (j <=? pos + n2)%nat eqn:E4; try lia;
        rewrite lplus_exact; try lia; f_equal; lia.
  Qed.

  Lemma inserted_lemma k : (n1 + n2 < k)%nat ->
    inserted l1 l2 P k = Ok xs /\ inserted_back l1 l2 P k = Ok (rev xs).
  Proof using Hpos.
    rewrite <- ir_length. intros H. destruct insert_traverses_lemma as (T & R & _). split.
    - apply (walk_lemma _ _ _ _ _ _ _ T H).
    - apply (walk_back_lemma _ _ _ _ _ _ _ _ T R H).
  Qed.

  Lemma insert_less_lemma i j s t : (i <= n1 + n2)%nat -> (j <= n1 + n2)%nat ->
    after (ok (ir_next l1 l2 P)) ir_begin i s -> after (ok (ir_next l1 l2 P)) ir_begin j t ->
    ir_lt l2 P s t =
      if (pos <=? i)%nat && (i <? pos + n2)%nat && (pos + n2 <=? j)%nat then false
      else if (pos <=? j)%nat && (j <? pos + n2)%nat && (pos + n2 <=? i)%nat then true
      else (i <? j)%nat.
  Proof using Hpos.
    rewrite <- ir_length. replace ir_begin with (irf 0) by (unfold ir_begin, irf; cbn; f_equal; lia).
    intros Hi Hj Hs Ht. apply (after_inv _ _ _ irf_next) in Hs, Ht; auto. subst. rewrite ir_length in *.
    unfold ir_lt. rewrite !irf_base. unfold irf. cbn [fst snd].
    destruct (i <? pos)%nat eqn:E1, (pos + n2 <=? i)%nat eqn:E2, (j <? pos)%nat eqn:E3, (pos + n2 <=? j)%nat eqn:E4;
      cbn [andb orb negb];
      destruct (i <=? pos)%nat eqn:F1, (i <=? pos + n2)%nat eqn:F2,
        (j <=? pos)%nat eqn:F3, (j <=? pos + n2)%nat eqn:F4; try lia;
      destruct (pos <=? i)%nat eqn:G1, (i <? pos + n2)%nat eqn:G2,
        (pos <=? j)%nat eqn:G3, (j <? pos + n2)%nat eqn:G4; cbn [andb]; lia.
  Qed.
End InsertP.

(** ** slices *)
Lemma elements_lemma {A} (l : list A) b e k : 0 <= b <= e -> e <= len l -> (length l < k)%nat ->
  elements l k (Ok (b, e)) = Ok (slice l (Z.to_nat b) (Z.to_nat e)).
Proof.
  intros Hb He Hk. unfold elements. cbn [bind fst snd].
  assert (Hk' : (Z.to_nat e - Z.to_nat b < k)%nat) by (unfold len in He; lia). clear Hk.
  assert (E : Z.to_nat e = (Z.to_nat b + (Z.to_nat e - Z.to_nat b))%nat) by lia.
  remember (Z.to_nat e - Z.to_nat b)%nat as n eqn:N. revert b k Hb Hk' E N.
  induction n as [|n IH]; intros b k Hb Hk E N; (destruct k as [|k]; [lia |]); cbn [walk].
  - replace (b =? e) with true by lia. unfold slice. replace (Z.to_nat e - Z.to_nat b)%nat with 0%nat by lia. reflexivity.
  - replace (b =? e) with false by lia. unfold len in *.
    destruct (nth_error l (Z.to_nat b)) as [x|] eqn:X; [| apply nth_error_None in X; lia].
    rewrite (get_ok l (Z.to_nat b) b x) by (lia || assumption). cbn [bind].
    rewrite mv_ok by lia. cbn [bind].
    rewrite (IH (b + 1) k) by lia. cbn [bind]. unfold slice.
    replace (Z.to_nat e - Z.to_nat b)%nat with (S (Z.to_nat e - Z.to_nat (b + 1))) by lia.
    replace (Z.to_nat (b + 1)) with (S (Z.to_nat b)) by lia. f_equal.
    clear -X. revert X. generalize (Z.to_nat b) as p. intros p X.
    assert (D : skipn p l = x :: skipn (S p) l).
    { revert l X. induction p as [|p IHp]; intros [|y l] X; cbn in *; try discriminate.
      - now injection X as ->.
      - now rewrite (IHp l X). }
    rewrite D. reflexivity.
Qed.

Section SlicesP.
  Context {A : Type}.
  Variables (l : list A) (k : nat).
  Hypothesis Hk : (length l < k)%nat.

  Lemma slice_0 n : slice l 0 n = firstn n l.
  Proof using. unfold slice. rewrite Nat.sub_0_r. reflexivity. Qed.

  Lemma slice_end n : slice l n (length l) = skipn n l.
  Proof using. clear Hk. unfold slice. apply firstn_all2. rewrite skipn_length. lia. Qed.

  Lemma firstn_min n : firstn (Nat.min n (length l)) l = firstn n l.
  Proof using. clear Hk.
    destruct (Nat.le_gt_cases n (length l)) as [H|H]; [f_equal; lia |].
    rewrite !firstn_all2 by lia. reflexivity.
  Qed.

  Lemma skipn_min n : skipn (Nat.min n (length l)) l = skipn n l.
  Proof using. clear Hk.
    destruct (Nat.le_gt_cases n (length l)) as [H|H]; [f_equal; lia |].
    rewrite !skipn_all2 by lia. reflexivity.
  Qed.

  Lemma taken_lemma n : 0 <= n -> elements l k (taken l n) = Ok (firstn (Z.to_nat n) l).
  Proof using Hk.
    intros H. unfold taken. unfold len. rewrite mv_ok by lia. cbn [bind].
    rewrite elements_lemma; [| lia | unfold len; lia | exact Hk].
    rewrite slice_0, <- (firstn_min (Z.to_nat n)). do 2 f_equal. lia.
  Qed.

  Lemma dropped_lemma n : 0 <= n -> elements l k (dropped l n) = Ok (skipn (Z.to_nat n) l).
  Proof using Hk.
    intros H. unfold dropped. unfold len. rewrite mv_ok by lia. cbn [bind].
    rewrite elements_lemma; [| lia | unfold len; lia | exact Hk].
    rewrite Nat2Z.id, slice_end, <- (skipn_min (Z.to_nat n)). do 2 f_equal. lia.
  Qed.

  Lemma taken_end_lemma n : n <= 0 -> elements l k (taken_end l n) = Ok (skipn (length l - Z.to_nat (- n)) l).
  Proof using Hk.
    intros H. unfold taken_end. unfold len. rewrite mv_ok by lia. cbn [bind].
    rewrite elements_lemma; [| lia | unfold len; lia | exact Hk].
    rewrite Nat2Z.id, slice_end. do 2 f_equal. lia.
  Qed.

  Lemma dropped_end_lemma n : n <= 0 -> elements l k (dropped_end l n) = Ok (firstn (length l - Z.to_nat (- n)) l).
  Proof using Hk.
    intros H. unfold dropped_end. unfold len. rewrite mv_ok by lia. cbn [bind].
    rewrite elements_lemma; [| lia | unfold len; lia | exact Hk].
    rewrite slice_0. do 2 f_equal. lia.
  Qed.

  Lemma window_lemma a b : 0 <= a <= b ->
    elements l k (window l a b) = Ok (firstn (Z.to_nat b - Z.to_nat a) (skipn (Z.to_nat a) l)).
  Proof using Hk.
    intros H. unfold window. unfold len. rewrite !mv_ok by lia. cbn [bind].
    rewrite elements_lemma; [| lia | unfold len; lia | exact Hk].
    unfold slice. rewrite <- (skipn_min (Z.to_nat a)).
    replace (Z.to_nat (0 + Z.min a (Z.of_nat (length l)))) with (Nat.min (Z.to_nat a) (length l)) by lia. f_equal.
    set (r := skipn (Nat.min (Z.to_nat a) (length l)) l).
    assert (R : length r = (length l - Nat.min (Z.to_nat a) (length l))%nat) by (unfold r; now rewrite skipn_length).
    destruct (Z.leb_spec b (Z.of_nat (length l))); [f_equal; lia |].
    rewrite !firstn_all2 by lia. reflexivity.
  Qed.

  Lemma offset_lemma a b : 0 <= a -> b <= 0 ->
    elements l k (offset l a b) =
      Ok (firstn (length l - Z.to_nat (- b) - Z.to_nat a) (skipn (Z.to_nat a) l)).
  Proof using Hk.
    intros Ha Hb. unfold offset. unfold len. rewrite !mv_ok by lia. cbn [bind].
    rewrite elements_lemma; [| lia | unfold len; lia | exact Hk].
    unfold slice. rewrite <- (skipn_min (Z.to_nat a)). do 2 f_equal; [lia | f_equal; lia].
  Qed.

  Lemma slices_undefined_lemma n : 0 < n ->
    elements l k (taken_end l n) = UB /\ elements l k (dropped_end l n) = UB /\
    elements l k (taken l (- n)) = UB /\ elements l k (dropped l (- n)) = UB.
  Proof using Hk.
    intros H. unfold taken_end, dropped_end, taken, dropped. unfold len.
    rewrite !mv_out by lia. repeat split; reflexivity.
  Qed.
End SlicesP.

(** ** step_iterator *)
Lemma walk_f {S A} (at_end : S -> bool) (next : S -> res S) (deref : S -> res A) (f : nat -> S) xs :
  (forall i, (i < length xs)%nat -> next (f i) = Ok (f (Datatypes.S i))) ->
  (forall i x, nth_error xs i = Some x -> deref (f i) = Ok x) ->
  (forall i, (i < length xs)%nat -> at_end (f i) = false) -> at_end (f (length xs)) = true ->
  forall k, (length xs < k)%nat -> walk k at_end next deref (f 0%nat) = Ok xs.
Proof.
  revert f. induction xs as [|x xs IH]; intros f Hn Hd Hf Ht k Hk; (destruct k as [|k]; [lia |]); cbn [walk].
  - cbn [length] in Ht. now rewrite Ht.
  - rewrite Hf by (cbn; lia). rewrite (Hd 0%nat x eq_refl). cbn [bind]. rewrite Hn by (cbn; lia). cbn [bind].
    rewrite (IH (fun i => f (Datatypes.S i))); [reflexivity | | | | | cbn [length] in Hk; lia].
    + intros i Hi. apply Hn. cbn. lia.
    + intros i y Hy. now apply (Hd (Datatypes.S i)).
    + intros i Hi. apply Hf. cbn. lia.
    + exact Ht.
Qed.

Section StepsP.
  Context {A : Type}.
  Variables (l : list A) (w p : nat).
  Hypothesis Hw : (1 <= w)%nat.
  Hypothesis Hp : (p < length l)%nat.
  Notation n := (length l).
  (** index of the last element visited *)
  Notation M := ((n - p - 1) / w)%nat.
  Definition stf (i : nat) : step :=
    Step (Z.of_nat (p + Nat.min i M * w)) (len l) (Z.of_nat w) (Z.of_nat (p + M * w)) (M <? i)%nat.

  Lemma M_bounds : (M * w <= n - p - 1)%nat /\ (n - p - 1 < M * w + w)%nat.
  Proof using Hw.
    clear Hp. pose proof (Nat.div_mod (n - p - 1) w ltac:(lia)) as D.
    pose proof (Nat.mod_upper_bound (n - p - 1) w ltac:(lia)) as U.
    set (q := ((n - p - 1) / w)%nat) in *. nia.
  Qed.

  Lemma st_new_f : st_new l (Z.of_nat p) (Z.of_nat w) (len l) = Ok (stf 0).
  Proof using Hw Hp.
    pose proof M_bounds as (B1 & B2). unfold st_new, stf.
    assert (Q : Z.quot (len l - Z.of_nat p - 1) (Z.of_nat w) = Z.of_nat M).
    { rewrite Nat2Z.inj_div. unfold len. rewrite Z.quot_div_nonneg by lia. f_equal. lia. }
    rewrite Q. set (q := ((n - p - 1) / w)%nat) in *. unfold len.
    rewrite mv_ok by nia. cbn [bind]. f_equal.
    replace (Z.of_nat p =? Z.of_nat n) with false by lia. cbn [Nat.min Nat.mul].
    replace (q <? 0)%nat with false by lia. f_equal; nia.
  Qed.

  Lemma stf_dist i (k : Z) : 0 <= k -> (i <= M)%nat -> st_dist (stf i) k = Z.of_nat w * Z.min (Z.of_nat M - Z.of_nat i) k.
  Proof using Hw Hp.
    intros Hk Hi. unfold st_dist, stf. cbn [st_cur st_wid st_back st_is_last]. set (q := ((n - p - 1) / w)%nat) in *.
    replace (0 <=? k) with true by lia. replace (Nat.min i q) with i by lia. nia.
  Qed.

  Lemma stf_plus i j : (i < j)%nat -> (j <= M)%nat -> st_plus l (stf i) (Z.of_nat j - Z.of_nat i) = Ok (stf j).
  Proof using Hw Hp.
    intros Hi Hj. pose proof M_bounds as (B1 & B2). unfold st_plus. rewrite stf_dist by lia.
    unfold stf. set (q := ((n - p - 1) / w)%nat) in *. cbn [st_cur st_last st_wid st_back st_is_last].
    unfold len. rewrite mv_ok by nia. cbn [bind]. f_equal.
    replace (q <? j)%nat with false by lia.
    f_equal; nia.
  Qed.

  Lemma stf_next i : (i < M + 1)%nat -> st_next l (stf i) = Ok (stf (S i)).
  Proof using Hw Hp.
    intros Hi. unfold st_next. destruct (Nat.eq_dec i M) as [E|E].
    - pose proof M_bounds as (B1 & B2). unfold st_plus. rewrite stf_dist by lia. subst i.
      unfold stf. set (q := ((n - p - 1) / w)%nat) in *. cbn [st_cur st_last st_wid st_back st_is_last].
      replace (Z.of_nat w * Z.min (Z.of_nat q - Z.of_nat q) 1) with 0 by lia. unfold len.
      rewrite mv_ok by nia. cbn [bind]. f_equal. replace (q <? S q)%nat with true by lia. cbn [Z.eqb].
      f_equal; nia.
    - replace 1 with (Z.of_nat (S i) - Z.of_nat i) by lia. apply stf_plus; lia.
  Qed.

  Lemma stf_inc i : (i < M + 1)%nat -> st_inc l (stf i) = Ok (stf (S i)).
  Proof using Hw Hp.
    intros Hi. pose proof M_bounds as (B1 & B2). unfold st_inc, st_dist, stf.
    cbn [st_cur st_last st_wid st_back st_is_last Z.leb Z.compare]. set (q := ((n - p - 1) / w)%nat) in *. unfold len.
    replace (Nat.min i q) with i by lia.
    destruct (Z.of_nat (p + i * w) =? Z.of_nat (p + q * w)) eqn:E.
    - assert (i = q) by nia. subst i. rewrite mv_ok by nia. cbn [bind]. f_equal.
      replace (q <? S q)%nat with true by lia. f_equal; nia.
    - assert (i < q)%nat by nia. rewrite mv_ok by nia. cbn [bind]. f_equal.
      replace (q <? i)%nat with false by lia. replace (q <? S i)%nat with false by lia. f_equal; nia.
  Qed.

  Lemma every_exists (ys : list A) : ys <> [] -> exists out, every_nth w ys out /\ length out = S ((length ys - 1) / w).
  Proof using Hw.
    clear Hp. intros Hy.
    destruct ys as [|y0 ys0] eqn:Y; [congruence |]. rewrite <- Y in *. clear Hy.
    exists (map (fun i => nth (i * w) ys y0) (seq 0 (S ((length ys - 1) / w)))). split.
    - intros i. pose proof (Nat.div_mod (length ys - 1) w ltac:(lia)) as D.
      pose proof (Nat.mod_upper_bound (length ys - 1) w ltac:(lia)) as U.
      assert (L : (0 < length ys)%nat) by (rewrite Y; cbn; lia).
      set (q := ((length ys - 1) / w)%nat) in *. rewrite nth_error_map.
      destruct (Nat.lt_ge_cases i (S q)) as [H|H].
      + rewrite (nth_error_nth' _ 0%nat) by (rewrite seq_length; lia). rewrite seq_nth by lia.
        cbn [option_map Nat.add]. symmetry. apply nth_error_nth'. nia.
      + rewrite (proj2 (nth_error_None _ _)) by (rewrite seq_length; lia). cbn [option_map].
        symmetry. apply nth_error_None. nia.
    - rewrite map_length, seq_length. reflexivity.
  Qed.

  Lemma stf_deref i : st_deref l (stf i) = match nth_error l (p + Nat.min i M * w) with Some x => Ok x | None => UB end.
  Proof using. clear Hw Hp.
    unfold st_deref, stf, get. cbn [st_cur]. generalize (p + Nat.min i M * w)%nat as z. intros z.
    replace (Z.of_nat z <? 0) with false by lia. rewrite Nat2Z.id. reflexivity.
  Qed.

  Lemma nth_skipn {B} (ys : list B) a i : nth_error (skipn a ys) i = nth_error ys (a + i).
  Proof using.
    clear. revert ys. induction a as [|a IH]; intros [|y ys]; cbn; auto. now destruct i.
  Qed.

  Lemma steps_walk k (next : step -> res step) :
    (forall i, (i < M + 1)%nat -> next (stf i) = Ok (stf (S i))) -> (n < k)%nat ->
    exists out, walk k st_is_last next (st_deref l) (stf 0) = Ok out /\ every_nth w (skipn p l) out.
  Proof using Hw Hp.
    intros Hn Hk. pose proof M_bounds as (B1 & B2).
    destruct (every_exists (skipn p l)) as (out & E & L).
    { intros H. apply (f_equal (@length A)) in H. rewrite skipn_length in H. cbn in H. lia. }
    rewrite skipn_length in L. exists out. split; [| exact E].
    apply walk_f.
    - intros i Hi. apply Hn. lia.
    - intros i x Hx. rewrite stf_deref. pose proof (nth_error_lt _ _ _ Hx) as Li.
      replace (Nat.min i M) with i by lia. specialize (E i). rewrite nth_skipn, Hx in E. now rewrite <- E.
    - intros i Hi. unfold stf. cbn [st_is_last]. lia.
    - unfold stf. cbn [st_is_last]. lia.
    - rewrite L. set (q := ((n - p - 1) / w)%nat) in *. nia.
  Qed.

  Lemma st_begin_f : st_begin l (Z.of_nat w) (Z.of_nat p) = Ok (stf 0).
  Proof using Hw Hp. unfold st_begin. unfold len at 1. rewrite mv_ok by (unfold len; lia). cbn [bind].
    replace (0 + Z.min (Z.of_nat p) (len l)) with (Z.of_nat p) by (unfold len; lia). apply st_new_f.
  Qed.

  Lemma st_end_ok : exists e, st_end l (Z.of_nat w) = Ok e /\ st_cur e = len l /\ st_is_last e = true /\ st_wid e = Z.of_nat w.
  Proof using Hw Hp.
    unfold st_end, st_new, len. replace (Z.of_nat n - Z.of_nat n - 1) with (-1) by lia.
    assert (Q : Z.quot (-1) (Z.of_nat w) * Z.of_nat w = 0 \/ Z.quot (-1) (Z.of_nat w) * Z.of_nat w = -1).
    { destruct (Nat.eq_dec w 1) as [E|E]; [right; rewrite E; reflexivity | left].
      replace (Z.quot (-1) (Z.of_nat w)) with 0; [reflexivity |].
      change (-1) with (Z.opp 1). rewrite Z.quot_opp_l by lia. rewrite Z.quot_small by lia. reflexivity. }
    rewrite mv_ok by lia. cbn [bind]. eexists. split; [reflexivity |]. cbn [st_cur st_is_last st_wid].
    repeat split. lia.
  Qed.

  Lemma steps_diverges k : steps l k (Z.of_nat w) (Z.of_nat p) = Fuel.
  Proof using Hw Hp.
    unfold steps. rewrite st_begin_f. cbn [bind]. destruct st_end_ok as (e & -> & Ec & El & _). cbn [bind].
    pose proof M_bounds as (B1 & B2).
    assert (G : forall k i, walk k (fun s => st_eq s e) (st_inc l) (st_deref l) (stf i) = Fuel).
    { clear k. induction k as [|k IH]; intros i; cbn [walk]; [reflexivity |].
      assert (Q : st_eq (stf i) e = false).
      { unfold st_eq, stf. rewrite Ec. cbn [st_cur st_is_last]. unfold len.
        set (q := ((n - p - 1) / w)%nat) in *.
        assert ((Nat.min i q * w <= q * w)%nat) by (apply Nat.mul_le_mono_r; lia).
        replace (Z.of_nat (p + Nat.min i q * w) =? Z.of_nat n) with false by lia. reflexivity. }
      rewrite Q, stf_deref.
      destruct (nth_error l (p + Nat.min i M * w)) as [x|] eqn:X.
      2:{ apply nth_error_None in X. set (q := ((n - p - 1) / w)%nat) in *.
          assert ((Nat.min i q * w <= q * w)%nat) by (apply Nat.mul_le_mono_r; lia). lia. }
      cbn [bind]. destruct (Nat.lt_ge_cases i (M + 1)) as [H|H].
      - rewrite stf_inc by exact H. cbn [bind]. rewrite IH. reflexivity.
      - assert (F : st_inc l (stf i) = Ok (stf i)).
        { unfold st_inc, st_dist, stf. cbn [st_cur st_last st_wid st_back st_is_last Z.leb Z.compare].
          set (q := ((n - p - 1) / w)%nat) in *. replace (Nat.min i q) with q by lia.
          rewrite Z.eqb_refl. unfold len. rewrite mv_ok by nia. cbn [bind]. f_equal.
          replace (q <? i)%nat with true by lia. f_equal; nia. }
        rewrite F. cbn [bind]. rewrite IH. reflexivity. }
    apply G.
  Qed.

  Lemma after_inc i s : (i <= M + 1)%nat -> after (ok (st_inc l)) (stf 0) i s -> s = stf i.
  Proof using Hw Hp.
    intros Hi Hs. apply (after_inv (st_inc l) stf (repeat tt (M + 1))) in Hs; [exact Hs | |].
    - intros j Hj. rewrite repeat_length in Hj. now apply stf_inc.
    - rewrite repeat_length. exact Hi.
  Qed.

  Lemma after_inc_f i : (i <= M + 1)%nat -> after (ok (st_inc l)) (stf 0) i (stf i).
  Proof using Hw Hp.
    intros Hi. apply (after_f (st_inc l) stf (repeat tt (M + 1))).
    - intros j Hj. rewrite repeat_length in Hj. now apply stf_inc.
    - rewrite repeat_length. exact Hi.
  Qed.

  Lemma stf_prev i : (i < M)%nat -> st_prev l (stf (S i)) = Ok (if (S i =? M)%nat then stf (S M) else stf i) /\
    st_dec l (stf (S i)) = Ok (if (S i =? M)%nat then stf (S i) else stf i).
  Proof using Hw Hp.
    intros Hi. pose proof M_bounds as (B1 & B2). unfold st_prev, st_plus, st_dec.
    assert (D : st_dist (stf (S i)) (-1) = if (S i =? M)%nat then 0 else - Z.of_nat w).
    { unfold st_dist, stf. cbn [st_cur st_wid st_back st_is_last Z.leb Z.compare].
      set (q := ((n - p - 1) / w)%nat) in *. replace (q <? S i)%nat with false by lia.
      replace (Nat.min (S i) q) with (S i) by lia. destruct (S i =? q)%nat eqn:E.
      - assert (S i = q) as -> by lia. lia.
      - assert (S i < q)%nat by lia. nia. }
    rewrite D. unfold stf. cbn [st_cur st_last st_wid st_back st_is_last].
    set (q := ((n - p - 1) / w)%nat) in *. unfold len.
    destruct (S i =? q)%nat eqn:E.
    - assert (S i = q) as -> by lia. rewrite mv_ok by nia. cbn [bind]. split; f_equal.
      + replace (q <? S q)%nat with true by lia. cbn [Z.eqb]. f_equal; nia.
      + replace (Nat.min q q) with q by lia. rewrite Z.add_0_r, Z.eqb_refl. reflexivity.
    - assert (S i < q)%nat by lia. rewrite mv_ok by nia. cbn [bind].
      replace (q <? S i)%nat with false by lia. replace (q <? i)%nat with false by lia. split; f_equal.
      + f_equal; nia.
      + replace (negb _) with true by nia. f_equal; nia.
  Qed.

  Lemma stf_zero i : (i <= M)%nat -> exists t, st_plus l (stf i) 0 = Ok t /\ st_is_last t = true.
  Proof using Hw Hp.
    intros Hi. pose proof M_bounds as (B1 & B2). unfold st_plus. rewrite stf_dist by lia.
    unfold stf. set (q := ((n - p - 1) / w)%nat) in *. cbn [st_cur st_last st_wid st_back].
    replace (Z.min (Z.of_nat q - Z.of_nat i) 0) with 0 by lia. rewrite Z.mul_0_r.
    unfold len. rewrite mv_ok by nia. cbn [bind]. eexists. split; [reflexivity |]. reflexivity.
  Qed.

  Lemma stf_past i k : (i < M)%nat -> Z.of_nat M - Z.of_nat i < k ->
    st_plus l (stf i) k = Ok (stf M).
  Proof using Hw Hp.
    intros Hi Hk. pose proof M_bounds as (B1 & B2). unfold st_plus. rewrite stf_dist by lia.
    unfold stf. set (q := ((n - p - 1) / w)%nat) in *. cbn [st_cur st_last st_wid st_back].
    replace (Z.min (Z.of_nat q - Z.of_nat i) k) with (Z.of_nat q - Z.of_nat i) by lia.
    unfold len. rewrite mv_ok by nia. cbn [bind]. f_equal. replace (q <? q)%nat with false by lia. f_equal; nia.
  Qed.

  Lemma st_difference e : st_end l (Z.of_nat w) = Ok e ->
    st_diff e (stf 0) = Z.of_nat ((n - p) / w) + 1.
  Proof using Hw Hp.
    intros E. destruct st_end_ok as (e' & E' & Ec & El & Ew). rewrite E in E'. injection E' as <-.
    unfold st_diff. rewrite Ec, El, Ew. unfold stf. cbn [st_cur st_is_last].
    change (M <? 0)%nat with false. cbn [Nat.min Nat.mul]. unfold len.
    rewrite Nat2Z.inj_div.
    replace (Z.of_nat n - Z.of_nat (p + 0)) with (Z.of_nat (n - p)) by lia.
    rewrite Z.quot_div_nonneg by lia. apply Z.sub_0_r.
  Qed.
End StepsP.
