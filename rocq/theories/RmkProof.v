(** Proofs about remake_iterator. *)
From Coq Require Import List Arith Bool ZArith Lia ZifyBool.
From Verif Require Import Base MutSpec RmkModel RmkSpec.
Import ListNotations.

Section Remake.
  Context {A : Type}.
  Variables (dst src : list A) (b e : nat).
  Hypothesis Hbe : b <= e <= length dst.

  Definition st (i : Z) : remake_it :=
    RIt i (Z.min (Z.max (i - Z.of_nat b) 0) (Z.min (Z.of_nat e - Z.of_nat b) (Z.of_nat (length src))))
      (Z.of_nat b - i) (Z.of_nat e - i).

  Lemma hop_ok len i n : (0 <= i + n <= len)%Z -> hop len i n = Ok (i + n)%Z.
  Proof. intros H. unfold hop. replace ((0 <=? i + n)%Z && (i + n <=? len)%Z) with true by lia. reflexivity. Qed.

  Lemma hop_to len i n j : (i + n = j)%Z -> (0 <= j <= len)%Z -> hop len i n = Ok j.
  Proof. intros <-. apply hop_ok. Qed.

  Lemma st_next i : (0 <= i < Z.of_nat (length dst))%Z -> rmk_next dst src (st i) = Ok (st (i + 1)).
  Proof.
    intros H. unfold rmk_next. cbn [rcur rcur2 rbegin rend st]. rewrite (hop_ok _ _ 1) by lia. cbn [bind].
    destruct (in_copying src (st i)) eqn:E; unfold in_copying in E; cbn [rcur2 rbegin rend st] in E.
    - rewrite hop_ok by lia. cbn [bind]. unfold st. f_equal. f_equal; lia.
    - cbn [bind]. unfold st. f_equal. f_equal; lia.
  Qed.

  Lemma stepped_st i : i <= length dst -> stepped dst src b e i = Ok (st (Z.of_nat i)).
  Proof.
    induction i as [|i IH]; intros H; cbn [stepped].
    - unfold rmk_begin, st. f_equal. f_equal; lia.
    - rewrite IH by lia. cbn [bind]. rewrite st_next by lia. f_equal. f_equal. lia.
  Qed.

  Lemma remade_length : length (remade dst src b e) = length dst.
  Proof.
    unfold remade, paste. rewrite !app_length, skipn_length, !firstn_length. lia.
  Qed.

  Lemma nth_error_firstn_lt (l : list A) : forall n i, i < n -> nth_error (firstn n l) i = nth_error l i.
  Proof.
    induction l as [|x t IH]; intros [|n] [|i] H; try lia; try reflexivity. cbn [firstn nth_error].
    apply IH. lia.
  Qed.

  Lemma nth_error_skipn_add (l : list A) : forall n i, nth_error (skipn n l) i = nth_error l (n + i).
  Proof.
    induction l as [|x t IH]; intros [|n] i; try reflexivity.
    - destruct i; reflexivity.
    - cbn [skipn plus nth_error]. apply IH.
  Qed.

  Lemma remade_nth i : i < length dst ->
    nth_error (remade dst src b e) i
    = if (b <=? i) && (i <? e) && (i - b <? length src) then nth_error src (i - b) else nth_error dst i.
  Proof.
    intros H. unfold remade, paste.
    assert (L : length (firstn b dst) = b) by (rewrite firstn_length; lia).
    assert (L2 : length (firstn (e - b) src) = Nat.min (e - b) (length src)) by apply firstn_length.
    destruct (Nat.ltb_spec i b) as [H1|H1].
    - rewrite nth_error_app1 by lia. rewrite nth_error_firstn_lt by lia.
      replace ((b <=? i) && (i <? e) && (i - b <? length src)) with false by lia. reflexivity.
    - rewrite nth_error_app2 by lia. rewrite L.
      destruct (Nat.ltb_spec (i - b) (Nat.min (e - b) (length src))) as [H2|H2].
      + rewrite nth_error_app1 by lia. rewrite nth_error_firstn_lt by lia.
        replace ((b <=? i) && (i <? e) && (i - b <? length src)) with true by lia. reflexivity.
      + rewrite nth_error_app2 by lia. rewrite L2, nth_error_skipn_add.
        replace ((b <=? i) && (i <? e) && (i - b <? length src)) with false by lia. f_equal. lia.
  Qed.

  (** Where the iterator reads: only the copying state and the two positions matter. *)
  Lemma read_like it i : i < length dst -> rcur it = Z.of_nat i -> rbegin it = (Z.of_nat b - Z.of_nat i)%Z ->
    rend it = (Z.of_nat e - Z.of_nat i)%Z ->
    (b <= i < e -> rcur2 it = Z.min (Z.of_nat i - Z.of_nat b) (Z.of_nat (length src))) ->
    rmk_deref dst src it = rd (remade dst src b e) i.
  Proof.
    intros H H1 H2 H3 H4. unfold rmk_deref, in_copying, rget, rd. rewrite remade_nth by assumption.
    rewrite H1, H2, H3.
    destruct ((b <=? i) && (i <? e)) eqn:W.
    - rewrite H4 by lia.
      replace ((Z.of_nat b - Z.of_nat i <=? 0)%Z && (0 <? Z.of_nat e - Z.of_nat i)%Z) with true by lia. cbn [andb].
      destruct (Nat.ltb_spec (i - b) (length src)) as [Hs|Hs].
      + replace (negb (Z.min (Z.of_nat i - Z.of_nat b) (Z.of_nat (length src)) =? Z.of_nat (length src))%Z)
          with true by lia.
        replace (Z.min (Z.of_nat i - Z.of_nat b) (Z.of_nat (length src)) <? 0)%Z with false by lia.
        replace (Z.to_nat (Z.min (Z.of_nat i - Z.of_nat b) (Z.of_nat (length src)))) with (i - b) by lia. reflexivity.
      + replace (negb (Z.min (Z.of_nat i - Z.of_nat b) (Z.of_nat (length src)) =? Z.of_nat (length src))%Z)
          with false by lia.
        replace (Z.of_nat i <? 0)%Z with false by lia. rewrite Nat2Z.id. reflexivity.
    - cbn [andb]. replace ((Z.of_nat b - Z.of_nat i <=? 0)%Z && (0 <? Z.of_nat e - Z.of_nat i)%Z) with false by lia.
      cbn [andb]. replace (Z.of_nat i <? 0)%Z with false by lia. rewrite Nat2Z.id. reflexivity.
  Qed.

  Lemma st_deref i : i < length dst -> rmk_deref dst src (st (Z.of_nat i)) = rd (remade dst src b e) i.
  Proof. intros H. apply read_like; cbn [st rcur rcur2 rbegin rend]; lia. Qed.

  Lemma stepped_lemma i : i <= length dst -> exists it, stepped dst src b e i = Ok it /\ rcur it = Z.of_nat i
    /\ (i < length dst -> rmk_deref dst src it = rd (remade dst src b e) i).
  Proof.
    intros H. exists (st (Z.of_nat i)). split; [now apply stepped_st|]. split; [reflexivity|]. apply st_deref.
  Qed.

  Lemma read_from fuel i : i <= length dst -> length dst - i < fuel ->
    rmk_read dst src fuel (st (Z.of_nat i)) (rmk_end dst src b e) = Ok (skipn i (remade dst src b e)).
  Proof.
    revert i. induction fuel as [|fuel IH]; intros i H1 H2; [lia|]. cbn [rmk_read].
    unfold rmk_eq. cbn [rcur st rmk_end]. destruct (Z.eqb_spec (Z.of_nat i) (Z.of_nat (length dst))) as [E|E].
    - rewrite skipn_all2; [reflexivity|]. rewrite remade_length. lia.
    - rewrite st_deref by lia. destruct (nth_error (remade dst src b e) i) as [x|] eqn:Ex;
        [|apply nth_error_None in Ex; rewrite remade_length in Ex; lia].
      unfold rd. rewrite Ex. cbn [bind]. rewrite st_next by lia. cbn [bind].
      replace (Z.of_nat i + 1)%Z with (Z.of_nat (S i)) by lia. rewrite IH by lia. cbn [bind]. f_equal.
      clear -Ex. revert i Ex. generalize (remade dst src b e) as l.
      induction l as [|y t IHl]; intros [|i] Ex; try discriminate.
      + injection Ex as ->. reflexivity.
      + cbn [skipn] in *. now apply IHl.
  Qed.

  Lemma remake_container_lemma fuel : length dst < fuel ->
    remake_container dst src fuel b e = Ok (remade dst src b e).
  Proof.
    intros H. unfold remake_container. replace (rmk_begin b e) with (st (Z.of_nat 0)).
    - rewrite read_from by lia. reflexivity.
    - unfold st, rmk_begin. f_equal; lia.
  Qed.

  Ltac fin := solve [unfold st; f_equal; f_equal; lia].
  Ltac branch :=
    match goal with
    | |- context [if ?c then _ else _] => destruct c eqn:?
    end.

  (** + n and - n *)
  Lemma advance_lemma i j : i <= length dst -> j <= length dst ->
    (length src <= e - b \/ (i <= e /\ (b <= i \/ j <= e))) ->
    rmk_advance dst src (st (Z.of_nat i)) (Z.of_nat j - Z.of_nat i) = Ok (st (Z.of_nat j)).
  Proof.
    intros Hi Hj H. unfold rmk_advance. cbn [rcur rcur2 rbegin rend st].
    rewrite (hop_to _ (Z.of_nat i) _ (Z.of_nat j)) by lia. cbn [bind].
    repeat (branch; try lia).
    all: try (cbn [bind]; fin).
    all: erewrite hop_to; [cbn [bind]; unfold st; f_equal; f_equal; try reflexivity; try lia| |].
    all: lia.
  Qed.

  Lemma plus_lemma i j it : i <= length dst -> j <= length dst ->
    (length src <= e - b \/ (i <= e /\ (b <= i \/ j <= e))) -> stepped dst src b e i = Ok it ->
    rmk_plus dst src it (Z.of_nat j - Z.of_nat i) = stepped dst src b e j
    /\ rmk_minus dst src it (Z.of_nat i - Z.of_nat j) = stepped dst src b e j.
  Proof.
    intros Hi Hj H E. rewrite stepped_st in E by assumption. injection E as <-. rewrite stepped_st by assumption.
    unfold rmk_plus, rmk_minus.
    replace (- (Z.of_nat i - Z.of_nat j))%Z with (Z.of_nat j - Z.of_nat i)%Z by lia.
    split; now apply advance_lemma.
  Qed.

  Lemma index_lemma i j it : i <= length dst -> j < length dst -> (length src <= e - b \/ i <= e) ->
    stepped dst src b e i = Ok it ->
    rmk_index dst src it (Z.of_nat j - Z.of_nat i) = rd (remade dst src b e) j.
  Proof.
    intros Hi Hj H E. rewrite stepped_st in E by assumption. injection E as <-. unfold rmk_index, rmk_plus.
    destruct (Nat.leb_spec (length src) (e - b)) as [Hs|Hs].
    - rewrite advance_lemma by lia. cbn [bind]. now apply st_deref.
    - destruct (Nat.leb_spec b i) as [Hb|Hb].
      { rewrite advance_lemma by lia. cbn [bind]. now apply st_deref. }
      destruct (Nat.leb_spec j e) as [He|He].
      { rewrite advance_lemma by lia. cbn [bind]. now apply st_deref. }
      unfold rmk_advance. cbn [rcur rcur2 rbegin rend st].
      rewrite (hop_to _ (Z.of_nat i) _ (Z.of_nat j)) by lia. cbn [bind].
      repeat (branch; try lia).
      erewrite hop_to; [|reflexivity|lia]. cbn [bind]. apply read_like; cbn [rcur rcur2 rbegin rend]; lia.
  Qed.

  Lemma prev_lemma i it : i < length dst -> e - b <= length src -> stepped dst src b e (S i) = Ok it ->
    rmk_prev dst src it = stepped dst src b e i.
  Proof.
    intros Hi H E. rewrite stepped_st in E by lia. injection E as <-. rewrite stepped_st by lia.
    unfold rmk_prev. cbn [rcur rcur2 rbegin rend st]. rewrite (hop_to _ _ _ (Z.of_nat i)) by lia. cbn [bind].
    branch; [erewrite hop_to; [|reflexivity|lia]|]; cbn [bind]; unfold st; f_equal; f_equal; lia.
  Qed.

  Lemma order_lemma i j a c : i <= length dst -> j <= length dst -> stepped dst src b e i = Ok a ->
    stepped dst src b e j = Ok c ->
    rmk_eq a c = (i =? j) /\ rmk_lt a c = (i <? j) /\ rmk_diff a c = (Z.of_nat i - Z.of_nat j)%Z
    /\ rmk_eq a (rmk_end dst src b e) = (i =? length dst)
    /\ rmk_diff (rmk_end dst src b e) a = (Z.of_nat (length dst) - Z.of_nat i)%Z.
  Proof.
    intros Hi Hj Ea Ec. rewrite stepped_st in Ea, Ec by assumption. injection Ea as <-. injection Ec as <-.
    unfold rmk_eq, rmk_lt, rmk_diff. cbn [rcur st rmk_end]. repeat split; lia.
  Qed.

  (** Backwards from end(): the offsets of the end iterator have the wrong sign, nothing of the source is seen. *)
  Lemma back_from fuel i acc it : i <= length dst -> i < fuel -> rcur it = Z.of_nat i -> (0 <= rbegin it)%Z ->
    rmk_read_back dst src fuel it (rmk_begin b e) acc = Ok (firstn i dst ++ acc).
  Proof.
    revert i acc it. induction fuel as [|fuel IH]; intros i acc it H1 H2 H3 H4; [lia|]. cbn [rmk_read_back].
    unfold rmk_eq. cbn [rcur rmk_begin]. rewrite H3. destruct (Z.eqb_spec (Z.of_nat i) 0) as [E|E].
    - replace i with 0 by lia. reflexivity.
    - destruct i as [|i]; [lia|]. unfold rmk_prev. rewrite H3, (hop_to _ _ _ (Z.of_nat i)) by lia. cbn [bind].
      replace ((rbegin it <? 0)%Z && (0 <=? rend it)%Z) with false by lia. cbn [bind].
      unfold rmk_deref, in_copying, rget. cbn [rcur rcur2 rbegin rend].
      replace (rbegin it + 1 <=? 0)%Z with false by lia. cbn [andb].
      replace (Z.of_nat i <? 0)%Z with false by lia. rewrite Nat2Z.id.
      destruct (nth_error dst i) as [x|] eqn:Ex; [|apply nth_error_None in Ex; lia].
      unfold rd. rewrite Ex. cbn [bind].
      rewrite (IH i) by (cbn [rcur rbegin]; lia). f_equal.
      assert (F : firstn (S i) dst = firstn i dst ++ [x]).
      { clear -Ex. revert i Ex. induction dst as [|y t IHl]; intros [|i] Ex; try discriminate.
        - injection Ex as ->. reflexivity.
        - cbn [firstn app]. f_equal. now apply IHl. }
      rewrite F, <- app_assoc. reflexivity.
  Qed.

  Lemma backward_lemma fuel : length dst < fuel ->
    rmk_read_back dst src fuel (rmk_end dst src b e) (rmk_begin b e) [] = Ok dst.
  Proof.
    intros H. rewrite (back_from fuel (length dst)); cbn [rcur rbegin rmk_end]; try lia.
    now rewrite firstn_all, app_nil_r.
  Qed.
End Remake.

(** A source shorter than the window: -- walks out of the source. *)
Lemma prev_refuted_lemma : exists (dst src : list nat) b e i it, b <= e <= length dst
  /\ stepped dst src b e (S i) = Ok it /\ rmk_prev dst src it <> stepped dst src b e i
  /\ exists it', rmk_prev dst src it = Ok it' /\ rmk_deref dst src it' = Ok 7
  /\ rd (remade dst src b e) i = Ok 2.
Proof.
  exists [0; 1; 2; 3], [8; 7], 0, 4, 2, (RIt 3 2 (-3) 1). split; [cbn; lia|]. split; [reflexivity|].
  split; [discriminate|]. eexists. split; [reflexivity|]. split; reflexivity.
Qed.

(** A source longer than the window: from behind the window, [-n] reads the wrong element of the source and + 1
    leaves the source. *)
Lemma plus_refuted_lemma :
  (exists (dst src : list nat) b e i j it, b <= e <= length dst /\ i < length dst /\ j < length dst
    /\ stepped dst src b e i = Ok it /\ rmk_index dst src it (Z.of_nat j - Z.of_nat i) = Ok 8
    /\ rd (remade dst src b e) j = Ok 7)
  /\ (exists (dst src : list nat) b e i it, b <= e <= length dst /\ S i < length dst
    /\ stepped dst src b e i = Ok it /\ rmk_plus dst src it 1 = UB).
Proof.
  split.
  - exists [0; 1; 2; 3; 4; 5], [9; 8; 7; 6], 0, 3, 4, 2, (RIt 4 3 (-4) (-1)).
    split; [cbn; lia|]. split; [cbn; lia|]. split; [cbn; lia|]. repeat split; reflexivity.
  - exists [0; 1; 2; 3; 4; 5; 6; 7], [9; 8; 7; 6], 0, 1, 4, (RIt 4 1 (-4) (-3)).
    split; [cbn; lia|]. split; [cbn; lia|]. split; reflexivity.
Qed.

(** From before the window to behind it, then back with -- : the source position is past the end of the window. *)
Lemma plus_over_refuted_lemma : exists (dst src : list nat) b e it it1 it2 it3, b <= e <= length dst
  /\ stepped dst src b e 0 = Ok it /\ rmk_plus dst src it (Z.of_nat (e + 1)) = Ok it1
  /\ rmk_prev dst src it1 = Ok it2 /\ rmk_prev dst src it2 = Ok it3 /\ e + 1 <= length dst
  /\ rmk_deref dst src it3 = Ok 7 /\ rd (remade dst src b e) (e - 1) = Ok 8.
Proof.
  exists [0; 1; 2; 3; 4; 5; 6; 7], [9; 8; 7; 6; 5; 4], 2, 4, (RIt 0 0 2 4), (RIt 5 3 (-3) (-1)),
    (RIt 4 3 (-2) 0), (RIt 3 2 (-1) 1).
  split; [cbn; lia|]. do 4 (split; [reflexivity|]). split; [cbn; lia|]. split; reflexivity.
Qed.
