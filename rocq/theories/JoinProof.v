(** Proofs about join and size_enumed. *)
From Coq Require Import List Arith Bool ZArith Lia ZifyBool ZifyNat.
From Verif Require Import Base SearchSpec OrderModel OrderSpec OrderProof ListFacts MutSpec NumSpec NumProof
  FixModel FixSpec FixProof FixProof2 JoinModel JoinSpec.
Import ListNotations.

(** ** size_enum_iterator *)
Ltac Zify.zify_post_hook ::= Z.to_euclidean_division_equations.

Lemma se_next_place_lemma it : place (se_next it) = (place it + 1)%Z /\ se_prev (se_next it) = it.
Proof. destruct it as [c [|]]; unfold se_next, se_prev, place; cbn [is_sep current]; split; try lia; f_equal; lia. Qed.
Lemma se_prev_place_lemma it : place (se_prev it) = (place it - 1)%Z /\ se_next (se_prev it) = it.
Proof. destruct it as [c [|]]; unfold se_next, se_prev, place; cbn [is_sep current]; split; try lia; f_equal; lia. Qed.
Lemma se_place_inj x y : place x = place y -> x = y.
Proof. destruct x as [a [|]], y as [b [|]]; unfold place; cbn [is_sep current]; intros H; try lia; f_equal; lia. Qed.
Lemma se_eqb_place_lemma x y : se_eqb x y = true <-> place x = place y.
Proof. destruct x as [a [|]], y as [b [|]]; unfold se_eqb, place; cbn [is_sep current Bool.eqb]; lia. Qed.
Lemma se_ltb_place_lemma x y : se_ltb x y = true <-> (place x < place y)%Z.
Proof. destruct x as [a [|]], y as [b [|]]; unfold se_ltb, place; cbn [is_sep current]; lia. Qed.

Lemma se_plus_place_lemma it n :
  place (se_plus it n) = (place it + n)%Z <-> (Z.even (n + b2z (is_sep it)) = true \/ 0 <= n + b2z (is_sep it))%Z.
Proof.
  unfold se_plus, place. cbn [is_sep current].
  set (m := (n + b2z (is_sep it))%Z). replace n with (m - b2z (is_sep it))%Z by (unfold m; lia). clearbody m.
  rewrite Z.even_spec. unfold Z.Even.
  assert (E : (if is_sep it then 1 else 0)%Z = b2z (is_sep it)) by reflexivity. rewrite E. clear E.
  generalize (b2z (is_sep it)). intros b.
  assert (Q : (Z.quot m 2 * 2 + Z.rem m 2 = m)%Z) by (pose proof (Z.quot_rem m 2); lia).
  destruct (Z.rem m 2 =? 0)%Z eqn:E; cbn [negb].
  - split; [intros _; left; exists (Z.quot m 2); lia|lia].
  - split.
    + intros H. destruct (Z_le_gt_dec 0 m); [tauto|]. exfalso. lia.
    + intros [[k K]|H]; [|lia]. exfalso. lia.
Qed.

Lemma se_minus_place_lemma it n :
  place (se_minus it n) = (place it - n)%Z <-> (Z.even (n - b2z (is_sep it)) = true \/ n - b2z (is_sep it) <= 0)%Z.
Proof.
  unfold se_minus, place. cbn [is_sep current].
  set (m := (n - b2z (is_sep it))%Z). replace n with (m + b2z (is_sep it))%Z by (unfold m; lia). clearbody m.
  rewrite Z.even_spec. unfold Z.Even.
  assert (E : (if is_sep it then 1 else 0)%Z = b2z (is_sep it)) by reflexivity. rewrite E. clear E.
  generalize (b2z (is_sep it)). intros b.
  assert (Q : (Z.quot m 2 * 2 + Z.rem m 2 = m)%Z) by (pose proof (Z.quot_rem m 2); lia).
  destruct (Z.rem m 2 =? 0)%Z eqn:E; cbn [negb].
  - split; [intros _; left; exists (Z.quot m 2); lia|lia].
  - split.
    + intros H. destruct (Z_le_gt_dec m 0); [tauto|]. exfalso. lia.
    + intros [[k K]|H]; [|lia]. exfalso. lia.
Qed.

Lemma se_diff_place_lemma x y :
  se_diff x y = (place x - place y)%Z <-> (current x - current y = 2 * (b2z (is_sep y) - b2z (is_sep x)))%Z.
Proof. destruct x as [a [|]], y as [b [|]]; unfold se_diff, place, b2z; cbn [is_sep current]; lia. Qed.

Lemma se_index_lemma szs sep it n : (0 <= n + b2z (is_sep it))%Z ->
  if is_sep (se_plus it n) then se_deref szs sep (se_plus it n) = Ok sep /\ se_index szs it n = rdz szs (current (se_plus it n))
  else se_index szs it n = se_deref szs sep (se_plus it n).
Proof.
  intros H. destruct (is_sep (se_plus it n)) eqn:E.
  - split; [unfold se_deref; now rewrite E|reflexivity].
  - unfold se_deref. rewrite E. reflexivity.
Qed.

Ltac Zify.zify_post_hook ::= idtac.

(** the enumeration *)
Lemma se_walk_ok szs sep last : forall n d i b,
  place last = (place (Sit (Z.of_nat i) b) + Z.of_nat n)%Z -> n < d ->
  (place last <= 2 * Z.of_nat (length szs))%Z ->
  se_walk d szs sep (Sit (Z.of_nat i) b) last
  = Ok (firstn n (skipn (2 * i + (if b then 1 else 0)) (concat (map (fun s => [s; sep]) szs)))).
Proof.
  induction n as [|n IH]; intros d i b HP Hd HL; (destruct d as [|d]; [lia|]); cbn [se_walk].
  - replace (se_eqb _ last) with true; [reflexivity|]. symmetry. apply se_eqb_place_lemma. lia.
  - replace (se_eqb _ last) with false.
    2:{ symmetry. apply not_true_is_false. rewrite se_eqb_place_lemma. lia. }
    unfold place in HP, HL. cbn [current is_sep] in HP.
    assert (Hi : i < length szs).
    { destruct last as [lc [|]]; cbn [current is_sep] in *; destruct b; lia. }
    assert (Hn : forall j l, j < length l -> skipn (2 * j) (concat (map (fun s => [s; sep]) l))
             = nth j l 0 :: sep :: skipn (2 * S j) (concat (map (fun s => [s; sep]) l))).
    { clear. intros j. induction j as [|j IHj]; intros [|x l] Hj; cbn [length] in Hj; try lia.
      - reflexivity.
      - specialize (IHj l ltac:(lia)). replace (2 * S (S j)) with (S (S (2 * S j))) by lia.
        replace (2 * S j) with (S (S (2 * j))) at 1 by lia. cbn [map concat app skipn nth]. exact IHj. }
    destruct b.
    + unfold se_deref, se_next. cbn [is_sep current bind].
      replace (Z.of_nat i + 1)%Z with (Z.of_nat (S i)) by lia.
      rewrite IH; [|unfold place; cbn [current is_sep]; lia|lia|unfold place; lia]. cbn [bind].
      specialize (Hn i szs Hi). rewrite Nat.add_0_r.
      assert (SK : forall (l : list nat) a, skipn (a + 1) l = tl (skipn a l)).
      { clear. intros l a. revert l. induction a as [|a IHa]; intros [|x l]; try reflexivity. exact (IHa l). }
      rewrite SK, Hn. reflexivity.
    + unfold se_deref, se_next, rdz. cbn [is_sep current].
      replace (Z.of_nat i <? 0)%Z with false by lia. rewrite Nat2Z.id.
      unfold rd. rewrite (nth_error_nth' szs 0 Hi). cbn [bind].
      rewrite IH; [|unfold place; cbn [current is_sep]; lia|lia|unfold place; lia]. cbn [bind].
      specialize (Hn i szs Hi). rewrite Nat.add_0_r, Hn.
      assert (SK : forall (l : list nat) a, skipn (a + 1) l = tl (skipn a l)).
      { clear. intros l a. revert l. induction a as [|a IHa]; intros [|x l]; try reflexivity. exact (IHa l). }
      rewrite SK, Hn. reflexivity.
Qed.

Lemma enum_length sep (szs : list nat) : length (concat (map (fun s => [s; sep]) szs)) = 2 * length szs.
Proof. induction szs as [|s l IH]; cbn [map concat app length]; lia. Qed.

Lemma removelast_firstn' {A} (l : list A) : removelast l = firstn (length l - 1) l.
Proof.
  induction l as [|x [|y l] IH]; [reflexivity|reflexivity|].
  change (removelast (x :: y :: l)) with (x :: removelast (y :: l)). rewrite IH.
  replace (length (x :: y :: l) - 1) with (S (length (y :: l) - 1)) by (cbn [length]; lia). reflexivity.
Qed.

Lemma size_enumed_correct_lemma d szs sep omit_last : 2 * length szs < d ->
  size_enumed d szs sep omit_last = Ok (interleaved sep szs omit_last).
Proof.
  intros H. unfold size_enumed, interleaved, se_begin.
  destruct omit_last.
  - unfold se_end. destruct (length szs =? 0) eqn:E.
    + destruct szs; [|cbn in E; discriminate]. destruct d; [lia|reflexivity].
    + change 0%Z with (Z.of_nat 0). rewrite se_walk_ok with (n := 2 * length szs - 1);
        [|unfold place; cbn [current is_sep]; lia|lia|unfold place; cbn [current is_sep]; lia].
      cbn [Nat.mul Nat.add skipn]. rewrite removelast_firstn', enum_length. do 2 f_equal.
  - unfold se_end. change 0%Z with (Z.of_nat 0). rewrite se_walk_ok with (n := 2 * length szs);
      [|unfold place; cbn [current is_sep]; lia|lia|unfold place; cbn [current is_sep]; lia].
    cbn [Nat.mul Nat.add skipn]. rewrite firstn_all2; [reflexivity|]. rewrite enum_length. lia.
Qed.

Lemma se_size_lemma n sep szs : length szs = n ->
  se_size n false = Z.of_nat n /\ length (interleaved sep szs false) = 2 * n
  /\ (0 < n -> se_size n true = (Z.of_nat n - 2)%Z /\ length (interleaved sep szs true) = 2 * n - 1).
Proof.
  intros E. unfold se_size, se_end, se_diff, se_begin, interleaved.
  repeat split; cbn [current is_sep].
  - lia.
  - rewrite enum_length. lia.
  - destruct (n =? 0) eqn:Z0; cbn [current is_sep]; lia.
  - rewrite removelast_firstn', firstn_length, enum_length. lia.
Qed.
