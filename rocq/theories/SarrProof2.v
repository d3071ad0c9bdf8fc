(** Proofs about SarrModel.v: the operations of sprout::fixed and sprout::fit. *)
From Coq Require Import List Bool Arith ZArith Lia ZifyBool ZifyNat.
From Verif Require Import Base FixModel SarrModel SarrSpec SarrProof.
Import ListNotations.
Open Scope Z_scope.

Section P.
  Context {A : Type}.
  Variable z : A.
  Implicit Types (l a b p q m xs ys : list A).

  Lemma operand_eq isub (c : sub A) a xs b : operand isub c a xs b -> c = view_of a xs b /\ (isub = false -> a = [] /\ b = []).
  Proof. now intros (H%shows_eq&K). Qed.

  Lemma kind_base isub a xs b : sbase (kind_of isub a xs b) = a ++ xs ++ b.
  Proof. destruct isub; cbn [kind_of view_of sbase app]; [reflexivity|now rewrite app_nil_r]. Qed.

  Lemma remake_ok isub (c : sub A) a xs b a' xs' b' n : operand isub c a xs b -> (isub = true -> a' = a) -> n = len xs' ->
    o_remake isub c n (a' ++ xs' ++ b') = Ok (kind_of isub a' xs' b').
  Proof.
    intros (->&K)%operand_eq HA ->. unfold o_remake, kind_of. destruct isub.
    - rewrite (proj2 (Z.ltb_ge _ _)) by apply len_nonneg. rewrite HA by reflexivity. cbn [view_of sfirst].
      rewrite !zpos_ok by zl. reflexivity.
    - unfold whole, view_of. cbn [app]. rewrite !app_nil_r. reflexivity.
  Qed.

  (** The general replacement of nothing by [ys], and of [m] by nothing. *)
  Ltac zif := match goal with |- context [if ?x <? ?y then _ else _] => destruct (x <? y) eqn:?; [|try (exfalso; zl)]; try (exfalso; zl) end.

  Lemma in_l l r i : 0 <= i < len l -> zat l i = zat (l ++ r) i. Proof. intros. symmetry. now apply zat_l. Qed.

  Lemma splice_pack P Q ys w n (f : Z -> res A) : n = len P + len ys + len Q + Z.of_nat w ->
    (forall i, 0 <= i < len P -> f i = zat (P ++ Q) i) ->
    (forall i, 0 <= i < len ys -> f (len P + i) = zat ys i) ->
    (forall i, 0 <= i < len Q -> f (len P + len ys + i) = zat (P ++ Q) (len P + i)) ->
    (forall i, len P + len ys + len Q <= i < n -> f i = Ok z) ->
    pack n f = Ok (P ++ ys ++ Q ++ repeat z w).
  Proof.
    intros -> H1 H2 H3 H4. apply pack_ok; [zl|]. intros i Hi.
    destruct (Z.lt_ge_cases i (len P)) as [L|L].
    - rewrite H1 by lia. now rewrite !zat_l by lia.
    - rewrite (zat_r P) by lia. destruct (Z.lt_ge_cases (i - len P) (len ys)) as [L2|L2].
      + rewrite zat_l by lia. rewrite <- H2 by lia. f_equal. lia.
      + rewrite zat_r by lia. destruct (Z.lt_ge_cases (i - len P - len ys) (len Q)) as [L3|L3].
        * rewrite zat_l by lia. replace i with (len P + len ys + (i - len P - len ys)) at 1 by lia.
          rewrite H3 by lia. rewrite zat_r by lia. f_equal. lia.
        * rewrite zat_r by lia. rewrite H4 by lia. rewrite zat_repeat by lia. reflexivity.
  Qed.

  Lemma append_at isub (c input : sub A) a p q b a' ys b' : operand isub c a (p ++ q) b -> shows input a' ys b' ->
    append_impl z isub c (len a + len p) (s_size input) input =
    Ok (kind_of isub a (p ++ ys ++ q) (b ++ repeat z (length a' + length b'))).
  Proof.
    intros H H2%shows_eq. pose proof (operand_eq _ _ _ _ _ H) as (Ec&K). subst input. unfold append_impl.
    rewrite (splice_pack (a ++ p) (q ++ b) ys (length a' + length b')).
    - cbn [bind]. replace ((a ++ p) ++ ys ++ (q ++ b) ++ repeat z (length a' + length b'))
        with (a ++ (p ++ ys ++ q) ++ b ++ repeat z (length a' + length b')) by now rewrite <- !app_assoc.
      apply (remake_ok isub c a (p ++ q) b); [exact H|reflexivity|]. subst c. rewrite !view_size. zl.
    - subst c. cbn [view_of sbase]. zl.
    - intros i Hi. subst c. rewrite view_size. cbn [view_of sbase]. do 2 zif. now rewrite <- !app_assoc.
    - intros i Hi. subst c. rewrite view_size. cbn [view_of sbase sfirst]. do 3 zif.
      rewrite <- (view_zat a' ys b' i) by zl. f_equal. zl.
    - intros i Hi. subst c. rewrite view_size. cbn [view_of sbase]. do 3 zif. rewrite <- !app_assoc. f_equal. zl.
    - intros i Hi. subst c. rewrite view_size. cbn [view_of sbase] in *. zif. reflexivity.
  Qed.

  Lemma o_pos_ok isub (c : sub A) a p q b : operand isub c a (p ++ q) b -> o_pos c (len p) = Ok (len a + len p).
  Proof. intros (->&_)%operand_eq. unfold o_pos. rewrite view_begin. cbn [bind view_of sbase]. apply zpos_ok. zl. Qed.
  Lemma o_begin isub (c : sub A) a xs b : operand isub c a xs b -> s_begin c = Ok (len a + len (@nil A)).
  Proof. intros (->&_)%operand_eq. rewrite view_begin. f_equal. zl. Qed.
  Lemma o_end isub (c : sub A) a xs b : operand isub c a xs b -> s_end c = Ok (len a + len xs).
  Proof. intros (->&_)%operand_eq. apply view_end. Qed.

  Lemma append_lemma isub (c input : sub A) a p q b a' ys b' : operand isub c a (p ++ q) b -> shows input a' ys b' ->
    let r := Ok (kind_of isub a (p ++ ys ++ q) (b ++ repeat z (length a' + length b'))) in
    o_append z isub c (len p) input = r /\ o_append_it z isub c (len a + len p) input = r.
  Proof.
    intros H H2. cbv zeta. unfold o_append, o_append_it. rewrite (o_pos_ok _ _ _ _ _ _ H). cbn [bind].
    rewrite (append_at _ _ _ _ _ _ _ _ _ _ H H2). now split.
  Qed.
  Lemma append_ends_lemma isub (c input : sub A) a xs b a' ys b' : operand isub c a xs b -> shows input a' ys b' ->
    o_append_back z isub c input = Ok (kind_of isub a (xs ++ ys) (b ++ repeat z (length a' + length b'))) /\
    o_append_front z isub c input = Ok (kind_of isub a (ys ++ xs) (b ++ repeat z (length a' + length b'))).
  Proof.
    intros H H2. unfold o_append_back, o_append_front. rewrite (o_end _ _ _ _ _ H), (o_begin _ _ _ _ _ H). cbn [bind]. split.
    - rewrite <- (app_nil_r xs) in H. rewrite (append_at _ _ _ _ _ _ _ _ _ _ H H2). now rewrite app_nil_r.
    - apply (append_at isub c input a [] xs b _ _ _ H H2).
  Qed.

  Lemma param_at_ok (v : A) values : forall n, 0 <= n < 1 + len values -> Ok (param_at n v values) = zat (v :: values) n.
  Proof.
    revert v. induction values as [|w values IH]; intros v n H; cbn [param_at].
    - replace n with 0 by zl. reflexivity.
    - destruct (n =? 0) eqn:E; [replace n with 0 by lia; reflexivity|].
      rewrite IH by zl. change (v :: w :: values) with ([v] ++ w :: values). rewrite zat_r by zl. reflexivity.
  Qed.

  Lemma insert_at isub (c : sub A) a p q b (v : A) values : operand isub c a (p ++ q) b ->
    insert_impl z isub c (len a + len p) v values = Ok (kind_of isub a (p ++ (v :: values) ++ q) b).
  Proof.
    intros H. pose proof (operand_eq _ _ _ _ _ H) as (Ec&K). unfold insert_impl.
    rewrite (splice_pack (a ++ p) (q ++ b) (v :: values) 0).
    - cbn [bind repeat]. rewrite app_nil_r.
      replace ((a ++ p) ++ (v :: values) ++ q ++ b) with (a ++ (p ++ (v :: values) ++ q) ++ b) by now rewrite <- !app_assoc.
      apply (remake_ok isub c a (p ++ q) b); [exact H|reflexivity|]. subst c. rewrite !view_size. zl.
    - subst c. cbn [view_of sbase]. zl.
    - intros i Hi. subst c. cbn [view_of sbase]. do 2 zif. now rewrite <- !app_assoc.
    - intros i Hi. subst c. cbn [view_of sbase sfirst]. do 3 zif.
      rewrite <- param_at_ok by zl. do 2 f_equal. zl.
    - intros i Hi. subst c. cbn [view_of sbase]. do 3 zif. rewrite <- !app_assoc. f_equal. zl.
    - intros i Hi. subst c. cbn [view_of sbase] in *. exfalso. zl.
  Qed.

  Lemma insert_lemma isub (c : sub A) a p q b (v : A) values : operand isub c a (p ++ q) b ->
    let r := Ok (kind_of isub a (p ++ (v :: values) ++ q) b) in
    o_insert z isub c (len p) v values = r /\ o_insert_it z isub c (len a + len p) v values = r.
  Proof.
    intros H. cbv zeta. unfold o_insert, o_insert_it. rewrite (o_pos_ok _ _ _ _ _ _ H). cbn [bind].
    rewrite (insert_at _ _ _ _ _ _ _ _ H). now split.
  Qed.
  Lemma push_lemma isub (c : sub A) a xs b (v : A) values : operand isub c a xs b ->
    o_push_back z isub c v values = Ok (kind_of isub a (xs ++ v :: values) b) /\
    o_push_front z isub c v values = Ok (kind_of isub a (v :: values ++ xs) b).
  Proof.
    intros H. unfold o_push_back, o_push_front. rewrite (o_end _ _ _ _ _ H), (o_begin _ _ _ _ _ H). cbn [bind]. split.
    - rewrite <- (app_nil_r xs) in H. rewrite (insert_at _ _ _ _ _ _ _ _ H). now rewrite app_nil_r.
    - apply (insert_at isub c a [] xs b _ _ H).
  Qed.

  Lemma len_times n l : len (times n l) = Z.of_nat n * len l.
  Proof.
    induction n as [|n IH]; [reflexivity|]. unfold times in *. cbn [repeat concat]. rewrite len_app, IH. lia.
  Qed.
  Lemma times_at n l : forall i, 0 < len l -> 0 <= i < Z.of_nat n * len l -> zat (times n l) i = zat l (i mod len l).
  Proof.
    induction n as [|n IH]; intros i Hl Hi; [lia|]. unfold times in *. cbn [repeat concat].
    destruct (Z.lt_ge_cases i (len l)) as [L|L].
    - rewrite zat_l by lia. now rewrite Z.mod_small by lia.
    - rewrite zat_r by lia. rewrite IH by lia. f_equal.
      replace i with (i - len l + 1 * len l) at 2 by lia. now rewrite Z.mod_add by lia.
  Qed.

  Lemma insert_n_at N isub (c : sub A) a p q b (v : A) values : operand isub c a (p ++ q) b ->
    insert_n_impl z (Z.of_nat N) isub c (len a + len p) v values = Ok (kind_of isub a (p ++ times N (v :: values) ++ q) b).
  Proof.
    intros H. pose proof (operand_eq _ _ _ _ _ H) as (Ec&K). unfold insert_n_impl.
    pose proof (len_times N (v :: values)) as T. rewrite len_cons in T.
    replace ((1 + len values) * Z.of_nat N) with (len (times N (v :: values))) by lia.
    rewrite (splice_pack (a ++ p) (q ++ b) (times N (v :: values)) 0).
    - cbn [bind repeat]. rewrite app_nil_r.
      replace ((a ++ p) ++ times N (v :: values) ++ q ++ b) with (a ++ (p ++ times N (v :: values) ++ q) ++ b) by now rewrite <- !app_assoc.
      apply (remake_ok isub c a (p ++ q) b); [exact H|reflexivity|]. subst c. rewrite !view_size. zl.
    - subst c. cbn [view_of sbase]. zl.
    - intros i Hi. subst c. cbn [view_of sbase]. pose proof (len_nonneg (times N (v :: values))). do 2 zif. now rewrite <- !app_assoc.
    - intros i Hi. subst c. cbn [view_of sbase sfirst].
      assert (0 <= len values) by apply len_nonneg. do 3 zif.
      rewrite param_at_ok by (apply Z.mod_pos_bound; lia). rewrite times_at by (rewrite len_cons; lia).
      rewrite len_cons. do 2 f_equal. zl.
    - intros i Hi. subst c. cbn [view_of sbase]. pose proof (len_nonneg (times N (v :: values))). do 3 zif. rewrite <- !app_assoc. f_equal. zl.
    - intros i Hi. subst c. cbn [view_of sbase] in *. exfalso. zl.
  Qed.

  Lemma insert_n_lemma N isub (c : sub A) a p q b (v : A) values : operand isub c a (p ++ q) b ->
    let r := Ok (kind_of isub a (p ++ times N (v :: values) ++ q) b) in
    o_insert_n z (Z.of_nat N) isub c (len p) v values = r /\ o_insert_n_it z (Z.of_nat N) isub c (len a + len p) v values = r.
  Proof.
    intros H. cbv zeta. unfold o_insert_n, o_insert_n_it. rewrite (o_pos_ok _ _ _ _ _ _ H). cbn [bind].
    rewrite (insert_n_at _ _ _ _ _ _ _ _ _ H). now split.
  Qed.
  Lemma push_n_lemma N isub (c : sub A) a xs b (v : A) values : operand isub c a xs b ->
    o_push_back_n z (Z.of_nat N) isub c v values = Ok (kind_of isub a (xs ++ times N (v :: values)) b) /\
    o_push_front_n z (Z.of_nat N) isub c v values = Ok (kind_of isub a (times N (v :: values) ++ xs) b).
  Proof.
    intros H. unfold o_push_back_n, o_push_front_n. rewrite (o_end _ _ _ _ _ H), (o_begin _ _ _ _ _ H). cbn [bind]. split.
    - rewrite <- (app_nil_r xs) in H. rewrite (insert_n_at _ _ _ _ _ _ _ _ _ H). now rewrite app_nil_r.
    - apply (insert_n_at N isub c a [] xs b _ _ H).
  Qed.

  Lemma erase_n_at isub (c : sub A) a p m q b : operand isub c a (p ++ m ++ q) b ->
    erase_n_impl z (len m) isub c (len a + len p) = Ok (kind_of isub a (p ++ q) b).
  Proof.
    intros H. pose proof (operand_eq _ _ _ _ _ H) as (Ec&K). unfold erase_n_impl.
    rewrite (proj2 (Z.ltb_ge _ _)) by (subst c; cbn [view_of sbase]; zl).
    pose proof (len_nonneg m) as Nm.
    rewrite (pack_ok _ _ (a ++ (p ++ q) ++ b)).
    - cbn [bind]. apply (remake_ok isub c a (p ++ m ++ q) b); [exact H|reflexivity|]. subst c. rewrite view_size. zl.
    - subst c. cbn [view_of sbase]. zl.
    - intros i Hi. subst c. cbn [view_of sbase] in *. rewrite (proj2 (Z.ltb_lt _ _)) by lia. rewrite <- !app_assoc.
      rewrite !(app_assoc a p). destruct (i <? len a + len p) eqn:E.
      + now rewrite !(zat_l (a ++ p)) by zl.
      + rewrite !(zat_r (a ++ p)) by zl. rewrite (zat_r m) by zl. f_equal. zl.
  Qed.
  Lemma erase_is_n isub (c : sub A) pos : erase_impl z isub c pos = erase_n_impl z 1 isub c pos.
  Proof. reflexivity. Qed.

  Lemma erase_lemma isub (c : sub A) a p x q b : operand isub c a (p ++ x :: q) b ->
    o_erase z isub c (len p) = Ok (kind_of isub a (p ++ q) b) /\
    o_erase_it z isub c (len a + len p) = Ok (kind_of isub a (p ++ q) b).
  Proof.
    intros H. unfold o_erase, o_erase_it. rewrite (o_pos_ok _ _ _ _ _ _ H). cbn [bind]. rewrite erase_is_n.
    change 1 with (len [x]). change (x :: q) with ([x] ++ q) in H. rewrite (erase_n_at _ _ _ _ _ _ _ H). now split.
  Qed.
  Lemma erase_n_lemma isub (c : sub A) a p m q b : operand isub c a (p ++ m ++ q) b ->
    o_erase_n z (len m) isub c (len p) = Ok (kind_of isub a (p ++ q) b) /\
    o_erase_n_it z (len m) isub c (len a + len p) = Ok (kind_of isub a (p ++ q) b).
  Proof.
    intros H. unfold o_erase_n, o_erase_n_it. rewrite (o_pos_ok _ _ _ _ _ _ H). cbn [bind].
    rewrite (erase_n_at _ _ _ _ _ _ _ H). now split.
  Qed.
  Lemma pop_back_n_lemma isub (c : sub A) a p m b : operand isub c a (p ++ m) b ->
    o_pop_back_n z (len m) isub c = Ok (kind_of isub a p b).
  Proof.
    intros H. unfold o_pop_back_n. rewrite (o_end _ _ _ _ _ H). cbn [bind].
    replace (len a + len (p ++ m) - len m) with (len a + len p) by zl.
    rewrite <- (app_nil_r m) in H. rewrite (erase_n_at _ _ _ _ _ _ _ H). now rewrite app_nil_r.
  Qed.
  Lemma pop_front_n_lemma isub (c : sub A) a m q b : operand isub c a (m ++ q) b ->
    o_pop_front_n z (len m) isub c = Ok (kind_of isub a q b).
  Proof.
    intros H. unfold o_pop_front_n. rewrite (o_begin _ _ _ _ _ H). cbn [bind]. apply (erase_n_at isub c a [] m q b H).
  Qed.
  Lemma pop_lemma isub (c : sub A) a xs b : operand isub c a xs b ->
    (forall p x, xs = p ++ [x] -> o_pop_back z isub c = Ok (kind_of isub a p b)) /\
    (forall x q, xs = x :: q -> o_pop_front z isub c = Ok (kind_of isub a q b)).
  Proof.
    intros H. split; intros; subst xs.
    - exact (pop_back_n_lemma isub c a p [x] b H).
    - exact (pop_front_n_lemma isub c a [x] q b H).
  Qed.

  (** realign, resize *)
  Lemma whole_view l : whole l = view_of [] l [].
  Proof. unfold whole, view_of. cbn [app]. now rewrite app_nil_r. Qed.

  Lemma resize_up (c : sub A) a xs b w v : shows c a xs b ->
    resize_impl (len xs + Z.of_nat w) c v = Ok (view_of [] (xs ++ repeat v w) []).
  Proof.
    intros ->%shows_eq. unfold resize_impl. rewrite view_size, view_begin. cbn [bind view_of sbase].
    rewrite (pack_ok _ _ (xs ++ repeat v w)); [cbn [bind]; unfold o_make; now rewrite whole_view|zl|].
    intros i Hi. destruct (i <? len xs) eqn:E.
    - rewrite view_zat by lia. now rewrite zat_l by lia.
    - rewrite zat_r by lia. now rewrite zat_repeat by lia.
  Qed.
  Lemma resize_down (c : sub A) a p q b v : shows c a (p ++ q) b ->
    resize_impl (len p) c v = Ok (view_of [] p []).
  Proof.
    intros ->%shows_eq. unfold resize_impl. rewrite view_size, view_begin. cbn [bind view_of sbase].
    rewrite (pack_ok _ _ p); [cbn [bind]; unfold o_make; now rewrite whole_view|zl|].
    intros i Hi. rewrite (proj2 (Z.ltb_lt _ _)) by zl. rewrite view_zat by zl. now rewrite zat_l by lia.
  Qed.
  Lemma realign_lemma (c : sub A) a xs b v : shows c a xs b ->
    o_realign c v = Ok (view_of [] (xs ++ repeat v (length a + length b)) []).
  Proof.
    intros H. unfold o_realign. rewrite <- (resize_up c a xs b _ v H). f_equal.
    apply shows_eq in H. subst c. cbn [view_of sbase]. zl.
  Qed.
  Lemma resize_lemma (c : sub A) a xs b v : shows c a xs b ->
    (forall w, o_resize (len xs + Z.of_nat w) c v = Ok (view_of [] (xs ++ repeat v w) []) /\
               o_realign_to (len xs + Z.of_nat w) c v = Ok (view_of [] (xs ++ repeat v w) []) /\
               o_resize_backward (len xs + Z.of_nat w) c v = Ok (view_of [] (repeat v w ++ xs) [])) /\
    (forall p q, xs = p ++ q ->
               o_resize (len p) c v = Ok (view_of [] p []) /\
               o_realign_to (len p) c v = Ok (view_of [] p []) /\
               o_resize_backward (len q) c v = Ok (view_of [] q [])).
  Proof.
    intros H. split.
    - intros w. split; [|split]; [exact (resize_up c a xs b w v H)|exact (resize_up c a xs b w v H)|].
      apply shows_eq in H. subst c. unfold o_resize_backward. rewrite view_size, view_begin. cbn [bind view_of sbase].
      rewrite (pack_ok _ _ (repeat v w ++ xs)); [cbn [bind]; unfold o_make; now rewrite whole_view|zl|].
      intros i Hi. replace (len xs + Z.of_nat w - len xs) with (Z.of_nat w) by lia.
      destruct (Z.lt_ge_cases i (Z.of_nat w)) as [L|L].
      + rewrite (zat_l (repeat v w)) by (rewrite len_repeat; lia). rewrite zat_repeat by lia.
        now rewrite (proj2 (Z.leb_gt _ _)) by lia.
      + rewrite (zat_r (repeat v w)) by (rewrite len_repeat; lia). rewrite (proj2 (Z.leb_le _ _)) by lia.
        rewrite (proj2 (Z.ltb_lt _ _)) by lia. cbn [andb]. rewrite view_zat by lia. now rewrite len_repeat.
    - intros p q ->. split; [|split]; [exact (resize_down c a p q b v H)|exact (resize_down c a p q b v H)|].
      apply shows_eq in H. subst c. unfold o_resize_backward. rewrite view_size, view_begin. cbn [bind view_of sbase].
      rewrite (pack_ok _ _ q); [cbn [bind]; unfold o_make; now rewrite whole_view|zl|].
      intros i Hi. rewrite (proj2 (Z.leb_le _ _)) by zl. rewrite (proj2 (Z.ltb_lt _ _)) by zl. cbn [andb].
      rewrite view_zat by zl. rewrite zat_r by zl. f_equal. zl.
  Qed.

  Lemma set_lemma isub (c : sub A) a p x q b v : operand isub c a (p ++ x :: q) b ->
    o_set isub c (len p) v = Ok (kind_of isub a (p ++ v :: q) b) /\
    o_set_it isub c (len a + len p) v = Ok (kind_of isub a (p ++ v :: q) b).
  Proof.
    intros H. unfold o_set, o_set_it. rewrite (o_pos_ok _ _ _ _ _ _ H). cbn [bind].
    assert (E : set_impl isub c (len a + len p) v = Ok (kind_of isub a (p ++ v :: q) b)); [|now split].
    pose proof (operand_eq _ _ _ _ _ H) as (Ec&K). unfold set_impl.
    rewrite (pack_ok _ _ (a ++ (p ++ v :: q) ++ b)).
    - cbn [bind]. apply (remake_ok isub c a (p ++ x :: q) b); [exact H|reflexivity|]. subst c. rewrite view_size. zl.
    - subst c. cbn [view_of sbase]. zl.
    - intros i Hi. subst c. cbn [view_of sbase] in *. rewrite <- !app_assoc. cbn [app]. rewrite !(app_assoc a p).
      destruct (i =? len a + len p) eqn:E; cbn [negb].
      + replace i with (len (a ++ p)) by zl. now rewrite zat_mid.
      + destruct (Z.lt_ge_cases i (len (a ++ p))) as [L|L]; [now rewrite !(zat_l (a ++ p)) by lia|].
        rewrite !(zat_r (a ++ p)) by lia. change (x :: q ++ b) with ([x] ++ q ++ b). change (v :: q ++ b) with ([v] ++ q ++ b).
        rewrite (zat_r [x]), (zat_r [v]) by zl. reflexivity.
  Qed.

  (** fit *)
  Lemma fitted_ok isub (c : sub A) a xs b b' ys r k : operand isub c a xs b -> r = Ok (kind_of isub a ys b') ->
    k = len ys - len xs -> fitted r (s_begin c) (end_plus c k) = Ok (view_of a ys b').
  Proof.
    intros (->&_)%operand_eq -> ->. unfold fitted, end_plus. rewrite view_begin, view_end. cbn [bind].
    unfold s_ctor, view_of. rewrite kind_base. do 2 f_equal. lia.
  Qed.

  Lemma fit_insert_lemma isub (c : sub A) a p q b (v : A) values : operand isub c a (p ++ q) b ->
    let r := Ok (view_of a (p ++ (v :: values) ++ q) b) in
    fit_insert z isub c (len p) v values = r /\ fit_insert_it z isub c (len a + len p) v values = r.
  Proof.
    intros H. destruct (insert_lemma isub c a p q b v values H) as (E1&E2). cbv zeta. unfold fit_insert, fit_insert_it. 
    split; apply (fitted_ok isub c a (p ++ q) b); auto; zl.
  Qed.
  Lemma fit_push_lemma isub (c : sub A) a xs b (v : A) values : operand isub c a xs b ->
    fit_push_back z isub c v values = Ok (view_of a (xs ++ v :: values) b) /\
    fit_push_front z isub c v values = Ok (view_of a (v :: values ++ xs) b).
  Proof.
    intros H. destruct (push_lemma isub c a xs b v values H) as (E1&E2). unfold fit_push_back, fit_push_front. 
    split; apply (fitted_ok isub c a xs b); auto; zl.
  Qed.
  Lemma fit_insert_n_lemma N isub (c : sub A) a p q b (v : A) values : operand isub c a (p ++ q) b ->
    let r := Ok (view_of a (p ++ times N (v :: values) ++ q) b) in
    fit_insert_n z (Z.of_nat N) isub c (len p) v values = r /\ fit_insert_n_it z (Z.of_nat N) isub c (len a + len p) v values = r.
  Proof.
    intros H. destruct (insert_n_lemma N isub c a p q b v values H) as (E1&E2). cbv zeta. unfold fit_insert_n, fit_insert_n_it. 
    pose proof (len_times N (v :: values)) as T. rewrite len_cons in T.
    split; apply (fitted_ok isub c a (p ++ q) b); auto; rewrite !len_app; lia.
  Qed.
  Lemma fit_push_n_lemma N isub (c : sub A) a xs b (v : A) values : operand isub c a xs b ->
    fit_push_back_n z (Z.of_nat N) isub c v values = Ok (view_of a (xs ++ times N (v :: values)) b) /\
    fit_push_front_n z (Z.of_nat N) isub c v values = Ok (view_of a (times N (v :: values) ++ xs) b).
  Proof.
    intros H. destruct (push_n_lemma N isub c a xs b v values H) as (E1&E2). unfold fit_push_back_n, fit_push_front_n. 
    pose proof (len_times N (v :: values)) as T. rewrite len_cons in T.
    split; apply (fitted_ok isub c a xs b); auto; rewrite !len_app; lia.
  Qed.
  Lemma fit_append_lemma isub (c input : sub A) a p q b a' ys b' : operand isub c a (p ++ q) b -> shows input a' ys b' ->
    let r := Ok (view_of a (p ++ ys ++ q) (b ++ repeat z (length a' + length b'))) in
    fit_append z isub c (len p) input = r /\ fit_append_it z isub c (len a + len p) input = r.
  Proof.
    intros H H2. destruct (append_lemma isub c input a p q b a' ys b' H H2) as (E1&E2). cbv zeta.
    unfold fit_append, fit_append_it. apply shows_eq in H2. subst input. rewrite !view_size.
    split; apply (fitted_ok isub c a (p ++ q) b); auto; zl.
  Qed.
  Lemma fit_append_ends_lemma isub (c input : sub A) a xs b a' ys b' : operand isub c a xs b -> shows input a' ys b' ->
    fit_append_back z isub c input = Ok (view_of a (xs ++ ys) (b ++ repeat z (length a' + length b'))) /\
    fit_append_front z isub c input = Ok (view_of a (ys ++ xs) (b ++ repeat z (length a' + length b'))).
  Proof.
    intros H H2. destruct (append_ends_lemma isub c input a xs b a' ys b' H H2) as (E1&E2).
    unfold fit_append_back, fit_append_front. apply shows_eq in H2. subst input. rewrite !view_size.
    split; apply (fitted_ok isub c a xs b); auto; zl.
  Qed.
  Lemma fit_erase_lemma isub (c : sub A) a p x q b : operand isub c a (p ++ x :: q) b ->
    fit_erase z isub c (len p) = Ok (view_of a (p ++ q) b) /\
    fit_erase_it z isub c (len a + len p) = Ok (view_of a (p ++ q) b).
  Proof.
    intros H. destruct (erase_lemma isub c a p x q b H) as (E1&E2). unfold fit_erase, fit_erase_it.
    split; apply (fitted_ok isub c a (p ++ x :: q) b); auto; zl.
  Qed.
  Lemma fit_pop_lemma isub (c : sub A) a xs b : operand isub c a xs b ->
    (forall p x, xs = p ++ [x] -> fit_pop_back z isub c = Ok (view_of a p b)) /\
    (forall x q, xs = x :: q -> fit_pop_front z isub c = Ok (view_of a q b)) /\
    (forall p m, xs = p ++ m -> fit_pop_back_n z (len m) isub c = Ok (view_of a p b)) /\
    (forall m q, xs = m ++ q -> fit_pop_front_n z (len m) isub c = Ok (view_of a q b)).
  Proof.
    intros H. destruct (pop_lemma isub c a xs b H) as (E1&E2).
    unfold fit_pop_back, fit_pop_front, fit_pop_back_n, fit_pop_front_n.
    split; [|split; [|split]]; intros u w ->.
    - apply (fitted_ok isub c a (u ++ [w]) b); eauto. zl.
    - apply (fitted_ok isub c a (u :: w) b); eauto. zl.
    - apply (fitted_ok isub c a (u ++ w) b); [exact H|now apply pop_back_n_lemma|zl].
    - apply (fitted_ok isub c a (u ++ w) b); [exact H|now apply pop_front_n_lemma|zl].
  Qed.
  (** What erase_n returns: the end is where it is for one element. *)
  Lemma fit_erase_n_lemma isub (c : sub A) a p m q b : operand isub c a (p ++ m ++ q) b ->
    let r := Ok (Sub (a ++ (p ++ q) ++ b) (len a) (len a + len (p ++ m ++ q) - 1)) in
    fit_erase_n z (len m) isub c (len p) = r /\ fit_erase_n_it z (len m) isub c (len a + len p) = r.
  Proof.
    intros H. destruct (erase_n_lemma isub c a p m q b H) as (E1&E2). unfold fit_erase_n, fit_erase_n_it.
    rewrite E1, E2. apply operand_eq in H. destruct H as (->&_). unfold fitted, end_plus.
    rewrite view_begin, view_end. cbn [bind]. rewrite kind_base. now split.
  Qed.
  Lemma fit_erase_n_refuted_lemma isub (c : sub A) a p m q b : operand isub c a (p ++ m ++ q) b -> len m <> 1 ->
    fit_erase_n z (len m) isub c (len p) <> Ok (view_of a (p ++ q) b) /\
    fit_erase_n_it z (len m) isub c (len a + len p) <> Ok (view_of a (p ++ q) b).
  Proof.
    intros H N. destruct (fit_erase_n_lemma isub c a p m q b H) as (E1&E2). rewrite E1, E2.
    unfold view_of. split; intros [= E]; zl.
  Qed.
  Lemma fit_erase_one_lemma isub (c : sub A) a p x q b : operand isub c a (p ++ x :: q) b ->
    fit_erase_n z 1 isub c (len p) = Ok (view_of a (p ++ q) b) /\
    fit_erase_n_it z 1 isub c (len a + len p) = Ok (view_of a (p ++ q) b).
  Proof.
    intros H. destruct (fit_erase_n_lemma isub c a p [x] q b H) as (E1&E2). change (len [x]) with 1 in *. rewrite E1, E2.
    unfold view_of. split; do 2 f_equal; zl.
  Qed.
  Lemma fit_resize_lemma (c : sub A) a xs b v : shows c a xs b ->
    (forall w, fit_resize (len xs + Z.of_nat w) c v = Ok (view_of [] (xs ++ repeat v w) []) /\
               fit_realign_to (len xs + Z.of_nat w) c v = Ok (view_of [] xs (repeat v w)) /\
               fit_resize_backward (len xs + Z.of_nat w) c v = Ok (view_of [] (repeat v w ++ xs) [])) /\
    (forall p q, xs = p ++ q ->
               fit_resize (len p) c v = Ok (view_of [] p []) /\
               fit_resize_backward (len q) c v = Ok (view_of [] q []) /\
               fit_realign_to (len p) c v = Ok (Sub p 0 (len xs))) /\
    fit_realign c v = Ok (view_of [] xs (repeat v (length a + length b))).
  Proof.
    intros H. destruct (resize_lemma c a xs b v H) as (R1&R2). pose proof (realign_lemma c a xs b v H) as R3.
    assert (Sz : s_size c = len xs) by (apply shows_eq in H; subst c; apply view_size).
    unfold fit_resize, fit_realign_to, fit_resize_backward, fit_realign, fitted.
    split; [|split].
    - intros w. destruct (R1 w) as (E1&E2&E3). rewrite E1, E2, E3. cbn [bind]. rewrite Sz. unfold s_ctor, view_of. cbn [sbase app].
      rewrite !app_nil_r. split; [|split]; do 2 f_equal; zl.
    - intros p q E. destruct (R2 p q E) as (E1&E2&E3). rewrite E1, E2, E3. cbn [bind]. rewrite Sz. unfold s_ctor, view_of. cbn [sbase app].
      rewrite !app_nil_r. split; [|split]; do 2 f_equal; zl.
    - rewrite R3. cbn [bind]. rewrite Sz. unfold s_ctor, view_of. cbn [sbase app]. rewrite !app_nil_r. do 2 f_equal; zl.
  Qed.
  Lemma fit_set_lemma isub (c : sub A) a p x q b v : operand isub c a (p ++ x :: q) b ->
    fit_set isub c (len p) v = Ok (view_of a (p ++ v :: q) b) /\
    fit_set_it isub c (len a + len p) v = Ok (view_of a (p ++ v :: q) b).
  Proof.
    intros H. destruct (set_lemma isub c a p x q b v H) as (E1&E2). unfold fit_set, fit_set_it. rewrite E1, E2.
    apply operand_eq in H. destruct H as (->&_). unfold fitted. rewrite view_begin, view_end. cbn [bind].
    rewrite kind_base. unfold s_ctor, view_of. split; do 2 f_equal; zl.
  Qed.
End P.
