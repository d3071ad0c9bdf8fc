(** Proofs about SarrModel.v: reading, writing, and the members of sub_array. *)
From Coq Require Import List Bool Arith ZArith Lia ZifyBool ZifyNat.
From Verif Require Import Base SearchModel SearchSpec OrderModel OrderSpec FixModel BstrModel ValModel.
From Verif Require Import FixProof SearchProof2 OrderProof4 SarrModel SarrSpec.
Import ListNotations.
Open Scope Z_scope.

Ltac zl := unfold len in *; repeat (rewrite ?app_length, ?repeat_length in *; cbn [length] in *); lia.

Section P.
  Context {A : Type}.
  Implicit Types (l a b p q r xs ys : list A).

  Lemma len_app l r : len (l ++ r) = len l + len r. Proof. zl. Qed.
  Lemma len_cons x l : len (x :: l) = 1 + len l. Proof. zl. Qed.
  Lemma len_nil : len (@nil A) = 0. Proof. reflexivity. Qed.
  Lemma len_repeat (x : A) n : len (repeat x n) = Z.of_nat n. Proof. zl. Qed.
  Lemma len_nonneg l : 0 <= len l. Proof. zl. Qed.
  Lemma len_rev l : len (rev l) = len l. Proof. unfold len. now rewrite rev_length. Qed.
  Lemma to_nat_len l : Z.to_nat (len l) = length l. Proof. zl. Qed.

  Lemma zat_l l r i : 0 <= i < len l -> zat (l ++ r) i = zat l i.
  Proof.
    intros H. unfold zat, rd. destruct (i <? 0) eqn:E; [lia|]. rewrite nth_error_app1; [reflexivity|zl].
  Qed.
  Lemma zat_r l r i : len l <= i -> zat (l ++ r) i = zat r (i - len l).
  Proof.
    intros H. unfold zat, rd. destruct (i <? 0) eqn:E; [zl|]. destruct (i - len l <? 0) eqn:E2; [lia|].
    rewrite nth_error_app2 by zl. replace (Z.to_nat (i - len l)) with (Z.to_nat i - length l)%nat by zl. reflexivity.
  Qed.
  Lemma zat_repeat (x : A) n i : 0 <= i < Z.of_nat n -> zat (repeat x n) i = Ok x.
  Proof.
    intros H. unfold zat, rd. destruct (i <? 0) eqn:E; [lia|].
    rewrite nth_error_repeat; [reflexivity|lia].
  Qed.
  Lemma zat_mid l x r : zat (l ++ x :: r) (len l) = Ok x.
  Proof. rewrite zat_r by lia. replace (len l - len l) with 0 by lia. reflexivity. Qed.
  Lemma zat_0 x r : zat (x :: r) 0 = Ok x. Proof. reflexivity. Qed.

  Lemma zset_mid l x y r : zset (l ++ x :: r) (len l) y = Ok (l ++ y :: r).
  Proof.
    unfold zset, wr. destruct (len l <? 0) eqn:E; [zl|]. rewrite to_nat_len.
    rewrite (proj2 (Nat.ltb_lt _ _)) by zl. f_equal. induction l as [|h t IH]; [reflexivity|].
    cbn [length app upd]. f_equal. apply IH. clear. zl.
  Qed.

  Lemma zpos_ok l i : 0 <= i <= len l -> zpos l i = Ok i.
  Proof. intros H. unfold zpos. now rewrite (proj2 (Z.leb_le 0 i)), (proj2 (Z.leb_le i (len l))) by lia. Qed.

  Lemma pack_ok n (f : Z -> res A) l : n = len l -> (forall i, 0 <= i < n -> f i = zat l i) -> pack n f = Ok l.
  Proof.
    intros -> H. unfold pack. rewrite to_nat_len. apply expand_rd. intros j Hj. rewrite Nat.add_0_l.
    rewrite H by zl. unfold zat. destruct (Z.of_nat j <? 0) eqn:E; [lia|]. now rewrite Nat2Z.id.
  Qed.

  Lemma shows_eq (s : sub A) a xs b : shows s a xs b <-> s = view_of a xs b.
  Proof.
    unfold shows, view_of. split.
    - intros (E1&E2&E3). destruct s as [l f e]. cbn in *. now subst.
    - intros ->. now split; [|split].
  Qed.

  (** Reading *)
  Lemma view_begin a xs b : s_begin (view_of a xs b) = Ok (len a).
  Proof. unfold s_begin, view_of. cbn [sbase sfirst]. apply zpos_ok. zl. Qed.
  Lemma view_end a xs b : s_end (view_of a xs b) = Ok (len a + len xs).
  Proof. unfold s_end, view_of. cbn [sbase slast]. apply zpos_ok. zl. Qed.
  Lemma view_size a xs b : s_size (view_of a xs b) = len xs.
  Proof. unfold s_size, view_of. cbn [sfirst slast]. lia. Qed.
  Lemma view_zat a xs b i : 0 <= i < len xs -> zat (a ++ xs ++ b) (len a + i) = zat xs i.
  Proof.
    intros H. rewrite zat_r by lia. replace (len a + i - len a) with i by lia. now apply zat_l.
  Qed.
  Lemma zat_rd l i : zat l (Z.of_nat i) = rd l i.
  Proof. unfold zat. destruct (Z.of_nat i <? 0) eqn:E; [lia|]. now rewrite Nat2Z.id. Qed.

  Lemma access_lemma (s : sub A) a xs b : shows s a xs b ->
    s_size s = len xs /\ (s_empty s = true <-> xs = []) /\
    s_begin s = Ok (len a) /\ s_end s = Ok (len a + len xs) /\
    s_from_begin s = len a /\ s_from_end s = - len b /\
    (forall p x q, xs = p ++ x :: q ->
       s_index s (len p) = Ok x /\ s_at s (len p) = Ok (Returns x) /\
       s_nth s (len p) = Ok (Returns (len a + len p)) /\ s_index_of s (len a + len p) = Ok (len p)) /\
    (forall i, len xs <= i -> s_at s i = Ok (Throws Out_of_range_error) /\ s_nth s i = Ok (Throws Out_of_range_error)) /\
    (forall x q, xs = x :: q -> s_front s = Ok x) /\ (forall p x, xs = p ++ [x] -> s_back s = Ok x).
  Proof.
    intros H%shows_eq. subst s.
    assert (R : forall p x q, xs = p ++ x :: q -> zat (sbase (view_of a xs b)) (sfirst (view_of a xs b) + len p) = Ok x).
    { intros p x q E. cbn [sbase sfirst view_of]. rewrite view_zat by (subst; zl). subst. apply zat_mid. }
    assert (L : forall p x q, xs = p ++ x :: q -> len p <? s_size (view_of a xs b) = true).
    { intros p x q E. rewrite view_size. subst. zl. }
    split; [apply view_size|]. split.
    { unfold s_empty, view_of. cbn [sfirst slast]. rewrite Z.eqb_eq. destruct xs; [|split; [zl|discriminate]].
      now rewrite len_nil, Z.add_0_r. }
    split; [apply view_begin|]. split; [apply view_end|]. split; [reflexivity|].
    split; [unfold s_from_end, view_of; cbn [sbase slast]; zl|]. split; [|split; [|split]].
    - intros p x q E. split; [now apply (R p x q)|]. split; [|split].
      + unfold s_at. now rewrite (L p x q E), (R p x q E).
      + unfold s_nth. rewrite (L p x q E), view_begin. cbn [bind]. rewrite zpos_ok; [reflexivity|].
        cbn [sbase view_of]. subst. zl.
      + unfold s_index_of. rewrite view_begin. cbn [bind]. f_equal. lia.
    - intros i Hi. unfold s_at, s_nth. rewrite view_size. now rewrite (proj2 (Z.ltb_ge i (len xs))) by lia.
    - intros x q E. unfold s_front. rewrite <- (R [] x q E). rewrite len_nil. now rewrite Z.add_0_r.
    - intros p x E. unfold s_back. rewrite <- (R p x [] E). f_equal. cbn [view_of slast sfirst]. subst. zl.
  Qed.

  (** Windows *)
  Lemma of_window l a xs b f e : l = a ++ xs ++ b -> f = len a -> e = len a + len xs -> shows (Sub l f e) a xs b.
  Proof. intros -> -> ->. now apply shows_eq. Qed.

  Lemma windows_lemma (s : sub A) a p m q b : shows s a (p ++ m ++ q) b ->
    shows (window_s s (len p) (len p + len m)) (a ++ p) m (q ++ b) /\
    shows (window_1_s s (len p)) (a ++ p) (m ++ q) b /\
    shows (cwindow_s s (len p) (len p + len m)) (a ++ p) m (q ++ b) /\
    shows (cwindow_1_s s (len p)) (a ++ p) (m ++ q) b /\
    shows (offset_s s (len p) (- len q)) (a ++ p) m (q ++ b) /\
    shows (coffset_s s (len p) (- len q)) (a ++ p) m (q ++ b) /\
    shows (s_offset s (len p) (- len q)) (a ++ p) m (q ++ b) /\
    shows (s_offset_mut s (len p) (- len q)) (a ++ p) m (q ++ b) /\
    shows (sub_it_s s (len a + len p) (len a + len p + len m)) (a ++ p) m (q ++ b) /\
    shows (csub_it_s s (len a + len p) (len a + len p + len m)) (a ++ p) m (q ++ b) /\
    (exists t, sub_it_1_s s (len a + len p) = Ok t /\ shows t (a ++ p) (m ++ q) b) /\
    (exists t, csub_it_1_s s (len a + len p) = Ok t /\ shows t (a ++ p) (m ++ q) b).
  Proof.
    intros H%shows_eq. subst s.
    unfold window_s, window_1_s, cwindow_s, cwindow_1_s, offset_s, coffset_s, s_offset, s_offset_mut, sub_it_s, csub_it_s,
      sub_it_1_s, csub_it_1_s, s_ctor_sub_it, s_ctor_it, s_ctor_sub, s_ctor, s_size, view_of.
    cbn [sbase sfirst slast].
    do 10 (split; [apply of_window; [now rewrite <- ?app_assoc|zl|zl]|]).
    assert (E : s_end (Sub (a ++ (p ++ m ++ q) ++ b) (len a) (len a + len (p ++ m ++ q))) =
                Ok (len a + len (p ++ m ++ q))) by apply view_end.
    rewrite E. cbn [bind].
    split; eexists; (split; [reflexivity|]); (apply of_window; [now rewrite <- ?app_assoc|zl|zl]).
  Qed.

  Lemma array_windows_lemma p m q :
    shows (s_ctor (p ++ m ++ q) (len p) (len p + len m)) p m q /\
    shows (s_ctor_it (p ++ m ++ q) (len p) (len p + len m)) p m q /\
    shows (window_a (p ++ m ++ q) (len p) (len p + len m)) p m q /\
    shows (window_1_a (p ++ m) (len p)) p m [] /\
    shows (offset_a (p ++ m ++ q) (len p) (- len q)) p m q /\
    shows (sub_it_a (p ++ m ++ q) (len p) (len p + len m)) p m q /\
    shows (sub_it_1_a (p ++ m) (len p)) p m [].
  Proof.
    unfold window_a, window_1_a, offset_a, sub_it_a, sub_it_1_a, s_ctor_it, s_ctor.
    repeat match goal with |- _ /\ _ => split end;
      try (apply of_window; [now rewrite ?app_nil_r|zl|zl]).
  Qed.

  (** The members take positions in the whole array, the functions positions in the sub_array. *)
  Lemma member_window_lemma (s : sub A) a xs b p m q : shows s a xs b -> a ++ xs ++ b = p ++ m ++ q ->
    shows (s_window s (len p) (len p + len m)) p m q /\ shows (s_window_mut s (len p) (len p + len m)) p m q.
  Proof.
    intros H%shows_eq E. subst s. unfold s_window, s_window_mut, s_ctor, view_of. cbn [sbase sfirst slast].
    split; apply of_window; auto.
  Qed.

  (** Changing elements *)
  Lemma fill_from_ok v xs : forall a b, fill_from (length xs) (a ++ xs ++ b) (len a) v = Ok (a ++ repeat v (length xs) ++ b).
  Proof.
    induction xs as [|x xs IH]; intros a b; [reflexivity|]. cbn [length fill_from repeat app].
    rewrite zset_mid. cbn [bind].
    replace (len a + 1) with (len (a ++ [v])) by zl.
    replace (a ++ v :: xs ++ b) with ((a ++ [v]) ++ xs ++ b) by now rewrite <- app_assoc.
    rewrite IH. now rewrite <- app_assoc.
  Qed.

  Lemma fill_lemma (s : sub A) a xs b v : shows s a xs b ->
    s_fill s v = Ok (view_of a (repeat v (length xs)) b).
  Proof.
    intros H%shows_eq. subst s. unfold s_fill. rewrite view_begin. cbn [bind]. rewrite view_size.
    rewrite (proj2 (Z.ltb_ge _ _)) by apply len_nonneg. rewrite to_nat_len. cbn [view_of sbase].
    rewrite fill_from_ok. cbn [bind view_of sfirst slast]. unfold view_of. do 2 f_equal. now rewrite len_repeat.
  Qed.

  Lemma push_back_lemma (s : sub A) a xs y b x : shows s a xs (y :: b) -> s_push_back s x = Ok (view_of a (xs ++ [x]) b).
  Proof.
    intros H%shows_eq. subst s. unfold s_push_back, view_of. cbn [sbase sfirst slast].
    rewrite app_assoc, <- len_app, zset_mid. cbn [bind]. rewrite <- !app_assoc. cbn [app].
    do 2 f_equal. zl.
  Qed.
  Lemma push_front_lemma (s : sub A) a y xs b x : shows s (a ++ [y]) xs b -> s_push_front s x = Ok (view_of a (x :: xs) b).
  Proof.
    intros H%shows_eq. subst s. unfold s_push_front, view_of. cbn [sbase sfirst slast].
    replace (len (a ++ [y]) - 1) with (len a) by zl. rewrite <- app_assoc. cbn [app]. rewrite zset_mid. cbn [bind].
    do 2 f_equal. zl.
  Qed.
  Lemma pop_back_lemma z (s : sub A) a xs x b : shows s a (xs ++ [x]) b ->
    s_pop_back z s = Ok (view_of a xs (z :: b)) /\ s_drop_back s = view_of a xs (x :: b).
  Proof.
    intros H%shows_eq. subst s. unfold s_pop_back, s_drop_back, view_of. cbn [sbase sfirst slast].
    replace (len a + len (xs ++ [x]) - 1) with (len (a ++ xs)) by zl. rewrite <- app_assoc. cbn [app]. split.
    - rewrite app_assoc, zset_mid. cbn [bind]. rewrite <- app_assoc. do 2 f_equal. apply len_app.
    - f_equal. apply len_app.
  Qed.
  Lemma pop_front_lemma z (s : sub A) a x xs b : shows s a (x :: xs) b ->
    s_pop_front z s = Ok (view_of (a ++ [z]) xs b) /\ s_drop_front s = view_of (a ++ [x]) xs b.
  Proof.
    intros H%shows_eq. subst s. unfold s_pop_front, s_drop_front, view_of. cbn [sbase sfirst slast]. split.
    - cbn [app]. rewrite zset_mid. cbn [bind]. rewrite <- app_assoc. do 2 f_equal; zl.
    - rewrite <- app_assoc. f_equal; zl.
  Qed.
  Lemma swap_lemma (s t : sub A) a xs b c ys d : shows s a xs b -> shows t c ys d ->
    s_swap s t = (view_of c ys d, view_of a xs b).
  Proof. intros H1%shows_eq H2%shows_eq. now subst. Qed.

  (** Comparison *)
  Lemma Forall2_nth (R : A -> A -> Prop) xs : forall ys, length xs = length ys ->
    (Forall2 R xs ys <->
     forall k, (k < length xs)%nat -> exists x y, nth_error xs k = Some x /\ nth_error ys k = Some y /\ R x y).
  Proof.
    induction xs as [|x xs IH]; intros [|y ys]; try discriminate.
    - intros _. split; [cbn; lia|constructor].
    - intros [= E]. split.
      + intros F. inversion F; subst. intros [|k] Hk; [now exists x, y|]. apply (proj1 (IH ys E) H4 k). cbn in Hk. lia.
      + intros G. constructor.
        * destruct (G 0%nat ltac:(cbn; lia)) as (x'&y'&[= <-]&[= <-]&?). assumption.
        * apply (IH ys E). intros k Hk. apply (G (S k)). cbn. lia.
  Qed.

  Lemma nth_view a xs b k : (k < length xs)%nat -> nth_error (a ++ xs ++ b) (length a + k) = nth_error xs k.
  Proof.
    intros H. rewrite nth_error_app2 by lia. replace (length a + k - length a)%nat with k by lia.
    now rewrite nth_error_app1.
  Qed.

  Section Eq.
  Variable eqb : A -> A -> bool.

  Lemma eq_prefix_lemma d (s t : sub A) a xs b c ys e ws : shows s a xs b -> shows t c ys e ->
    (exists us, ys ++ e = ws ++ us) -> length ws = length xs -> (depth_bound (length xs) <= d)%nat ->
    exists r : bool, s_eq eqb d s t = Ok r /\ (r = true <-> Forall2 (fun x y => eqb x y = true) xs ws).
  Proof.
    intros H1%shows_eq H2%shows_eq (us&E) L D. subst s t. unfold s_eq.
    rewrite !view_begin, view_end. cbn [bind]. rewrite <- len_app, !to_nat_len, app_length.
    destruct (@equal_correct_lemma A A eqb true d (sbase (view_of a xs b)) (sbase (view_of c ys e))
      (length a) (length a + length xs) (length c)) as (r&Hr&Hb).
    - split; [lia|cbn [view_of sbase]; rewrite !app_length; lia].
    - cbn [view_of sbase]. rewrite E, !app_length. lia.
    - now replace (length a + length xs - length a)%nat with (length xs) by lia.
    - exists r. split; [exact Hr|]. rewrite Hb. rewrite (Forall2_nth _ xs ws) by lia.
      replace (length a + length xs - length a)%nat with (length xs) by lia.
      cbn [view_of sbase]. rewrite E. unfold rel. split; intros G k Hk; specialize (G k Hk).
      + rewrite !nth_view in G by lia. exact G.
      + rewrite !nth_view by lia. exact G.
  Qed.

  Lemma eq_lemma d (s t : sub A) a xs b c ys e : shows s a xs b -> shows t c ys e -> length xs = length ys ->
    (depth_bound (length xs) <= d)%nat ->
    (exists r : bool, s_eq eqb d s t = Ok r /\ s_ne eqb d s t = Ok (negb r) /\
      (r = true <-> Forall2 (fun x y => eqb x y = true) xs ys)).
  Proof.
    intros H1 H2 L D. destruct (eq_prefix_lemma d s t a xs b c ys e ys H1 H2) as (r&E&H); [now exists e|now symmetry|exact D|].
    exists r. split; [exact E|]. split; [|exact H]. unfold s_ne. now rewrite E.
  Qed.

  End Eq.

  Variable lt : A -> A -> bool.

  Lemma precedes_lex a xs b c ys e :
    lex_less lt lt (a ++ xs ++ b) (length a) (length a + length xs) (c ++ ys ++ e) (length c) (length c + length ys) <->
    precedes lt xs ys.
  Proof.
    unfold lex_less, precedes. split.
    - intros (k&K1&K2&S&F). exists (firstn k xs), (firstn k ys), (skipn k xs), (skipn k ys).
      split; [now rewrite firstn_skipn|]. split; [now rewrite firstn_skipn|]. split.
      + apply Forall2_nth; [rewrite !firstn_length; lia|]. rewrite firstn_length. intros j Hj.
        specialize (S j ltac:(lia)). unfold same, rel in S. rewrite !nth_view in S by lia.
        assert (N : forall l, nth_error (firstn k l) j = nth_error l j).
        { intros l. rewrite <- (firstn_skipn k l) at 2. destruct (Nat.lt_ge_cases j (length (firstn k l))).
          - now rewrite nth_error_app1.
          - assert (length l <= j)%nat by (rewrite firstn_length in *; lia).
            rewrite firstn_skipn. now rewrite !(proj2 (nth_error_None _ _)) by lia. }
        rewrite !N.
        destruct (nth_error xs j) as [x|] eqn:Ex; [|apply nth_error_None in Ex; lia].
        destruct (nth_error ys j) as [y|] eqn:Ey; [|apply nth_error_None in Ey; lia].
        exists x, y. split; [reflexivity|]. split; [reflexivity|]. destruct S as (S1&S2).
        split; apply not_true_is_false; intros T; [apply S1; now exists x, y|apply S2; now exists y, x].
      + assert (Ny : exists y s', skipn k ys = y :: s').
        { destruct (skipn k ys) as [|y s'] eqn:Z0; [|now exists y, s']. apply (f_equal (@length A)) in Z0.
          rewrite skipn_length in Z0. cbn in Z0. lia. }
        destruct Ny as (y&s'&Ny). rewrite Ny. destruct (Nat.eq_dec k (length xs)) as [->|Hk].
        * left. split; [|discriminate]. apply skipn_all2. lia.
        * right. destruct F as [F|F]; [lia|].
          unfold rel in F. rewrite !nth_view in F by lia. destruct F as (x&y'&E1&E2&T).
          assert (Nx : forall l w, nth_error l k = Some w -> exists w', skipn k l = w :: w').
          { intros l w Ew. apply nth_error_split in Ew. destruct Ew as (l1&l2&->&<-). exists l2.
            rewrite skipn_app, Nat.sub_diag, skipn_all. reflexivity. }
          destruct (Nx _ _ E1) as (r'&R1). destruct (Nx _ _ E2) as (s2&R2). rewrite Ny in R2. injection R2 as -> ->.
          now exists x, y', r', s2.
    - intros (p&q&r&s&->&->&F&T). assert (L : length p = length q) by (clear -F; induction F; cbn [length]; congruence). exists (length p). rewrite !app_length.
      split; [lia|]. assert (length s <> 0)%nat.
      { destruct T as [(_&T)|(x&y&r'&s'&_&E&_)]; destruct s; cbn; try lia; congruence. }
      split; [lia|]. split.
      + intros j Hj. unfold same, rel. rewrite !nth_view by (rewrite app_length; lia).
        rewrite !nth_error_app1 by lia.
        destruct (proj1 (Forall2_nth _ p q L) F j Hj) as (x&y&Ex&Ey&F1&F2). rewrite Ex, Ey.
        split; intros (u&v&[= <-]&[= <-]&W); congruence.
      + destruct T as [(->&T)|(x&y&r'&s'&->&->&T)]; [left; cbn; lia|right].
        exists x, y. rewrite !nth_view by (rewrite app_length; cbn; lia). rewrite L at 2.
        rewrite !nth_error_app2 by lia. now rewrite L, !Nat.sub_diag.
  Qed.

  Lemma lt_ok d (s t : sub A) a xs b c ys e : shows s a xs b -> shows t c ys e -> (depth_bound (length xs) <= d)%nat ->
    exists r : bool, s_lt lt d s t = Ok r /\ (r = true <-> precedes lt xs ys).
  Proof.
    intros H1%shows_eq H2%shows_eq D. subst s t. unfold s_lt.
    rewrite !view_begin, !view_end. cbn [bind]. rewrite <- !len_app, !to_nat_len, !app_length.
    destruct (@lexicographical_compare_correct_lemma A A lt lt true d (sbase (view_of a xs b)) (sbase (view_of c ys e))
      (length a) (length a + length xs) (length c) (length c + length ys)) as (r&Hr&Hb).
    - split; [lia|cbn [view_of sbase]; rewrite !app_length; lia].
    - split; [lia|cbn [view_of sbase]; rewrite !app_length; lia].
    - now replace (length a + length xs - length a)%nat with (length xs) by lia.
    - exists r. split; [exact Hr|]. rewrite Hb. apply precedes_lex.
  Qed.

  Lemma lt_lemma d (s t : sub A) a xs b c ys e : shows s a xs b -> shows t c ys e ->
    (depth_bound (length xs) <= d)%nat -> (depth_bound (length ys) <= d)%nat ->
    exists l g : bool, s_lt lt d s t = Ok l /\ s_gt lt d s t = Ok g /\ s_le lt d s t = Ok (negb g) /\ s_ge lt d s t = Ok (negb l) /\
      (l = true <-> precedes lt xs ys) /\ (g = true <-> precedes lt ys xs).
  Proof.
    intros H1 H2 D1 D2. destruct (lt_ok d s t a xs b c ys e H1 H2 D1) as (l&El&Hl).
    destruct (lt_ok d t s c ys e a xs b H2 H1 D2) as (g&Eg&Hg). exists l, g.
    unfold s_gt, s_le, s_ge. now rewrite El, Eg.
  Qed.
End P.

(** A comparison of different sizes looks at the first range only; the one-argument member window
    and the two-argument ones. *)
Lemma eq_refuted_lemma : exists s t : sub Z,
  shows s [] [1] [2] /\ shows t [] [1; 2] [] /\
  s_eq Z.eqb 9 s t = Ok true /\ s_eq Z.eqb 9 t s = Ok true /\
  exists u : sub Z, shows u [] [1; 3] [] /\ s_eq Z.eqb 9 s u = Ok true /\ s_eq Z.eqb 9 u s = Ok false /\
  exists w : sub Z, shows w [] [1] [] /\ s_eq Z.eqb 9 t w = UB.
Proof.
  exists (view_of [] [1] [2]), (view_of [] [1; 2] []).
  split; [now apply shows_eq|]. split; [now apply shows_eq|]. split; [reflexivity|]. split; [reflexivity|].
  exists (view_of [] [1; 3] []). split; [now apply shows_eq|]. split; [reflexivity|]. split; [reflexivity|].
  exists (view_of [] [1] []). split; [now apply shows_eq|reflexivity].
Qed.

Lemma window_1_lemma {A} (s : sub A) a xs b i : shows s a xs b ->
  s_size (s_window_1_mut s i) = len a + len xs - 2 * i /\ s_size (s_window_1 s i) = len xs - i /\
  sfirst (s_window_1_mut s i) = i /\ sfirst (s_window_1 s i) = i.
Proof.
  intros H%shows_eq. subst s. unfold s_window_1_mut, s_window_1, s_ctor. rewrite view_size.
  unfold s_size. cbn [view_of sbase sfirst slast]. split; [lia|]. split; [lia|]. now split.
Qed.

Lemma window_1_refuted_lemma : exists s : sub Z,
  shows s [] [1; 2; 3; 4] [] /\ shows (window_1_s s 1) [1] [2; 3; 4] [] /\ shows (s_window_1 s 1) [1] [2; 3; 4] [] /\
  shows (s_window_1_mut s 1) [1] [2; 3] [4].
Proof.
  exists (view_of [] [1; 2; 3; 4] []). split; [|split; [|split]]; now apply shows_eq.
Qed.
