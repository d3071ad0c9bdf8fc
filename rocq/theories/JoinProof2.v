(** Proofs about join. *)
From Coq Require Import List Arith Bool ZArith Lia ZifyBool ZifyNat.
From Verif Require Import Base SearchSpec OrderModel OrderSpec OrderProof ListFacts MutSpec NumSpec NumProof
  FixModel FixSpec FixProof FixProof2 JoinModel JoinSpec JoinProof.
Import ListNotations.

Section Pieces.
  Context {A : Type}.
  Implicit Types (pieces conts : list (list A)).

  Definition upto pieces k := length (concat (firstn k pieces)).
  Definition sums pieces := inclusive Nat.add (map (@length A) pieces).

  Lemma upto_S pieces k c : nth_error pieces k = Some c -> upto pieces (S k) = upto pieces k + length c.
  Proof.
    unfold upto. revert k. induction pieces as [|p l IH]; intros [|k] H; try discriminate; cbn [nth_error] in H.
    - injection H as ->. cbn [firstn concat length]. rewrite app_length. destruct l; cbn [firstn concat length]; lia.
    - cbn [firstn concat]. rewrite !app_length. cbn [firstn] in IH. rewrite (IH k H). lia.
  Qed.
  Lemma upto_mono pieces j k : j <= k -> upto pieces j <= upto pieces k.
  Proof.
    unfold upto. revert j k. induction pieces as [|p l IH]; intros [|j] [|k] H; cbn [firstn concat length]; try lia.
    rewrite !app_length. specialize (IH j k ltac:(lia)). lia.
  Qed.
  Lemma upto_all pieces k : length pieces <= k -> upto pieces k = length (concat pieces).
  Proof. intros H. unfold upto. now rewrite firstn_all2. Qed.

  Lemma prefix_folds_nth pieces : forall a i, i < length pieces ->
    nth_error (prefix_folds Nat.add a (map (@length A) pieces)) i = Some (a + upto pieces (S i)).
  Proof.
    induction pieces as [|p l IH]; intros a i H; [cbn in H; lia|]. cbn [map prefix_folds].
    destruct i as [|i]; cbn [nth_error].
    - unfold upto. cbn [firstn concat]. rewrite app_nil_r. reflexivity.
    - cbn [length] in H. rewrite IH by lia. unfold upto. cbn [firstn concat]. rewrite !app_length. f_equal. lia.
  Qed.
  Lemma sums_nth pieces i : i < length pieces -> nth_error (sums pieces) i = Some (upto pieces (S i)).
  Proof.
    unfold sums. destruct pieces as [|p l]; [cbn; lia|]. intros H. cbn [map inclusive].
    destruct i as [|i]; cbn [nth_error].
    - unfold upto. cbn [firstn concat]. now rewrite app_nil_r.
    - cbn [length] in H. rewrite prefix_folds_nth by lia. unfold upto. cbn [firstn concat]. now rewrite !app_length.
  Qed.
  Lemma sums_length pieces : length (sums pieces) = length pieces.
  Proof. unfold sums. now rewrite inclusive_length, map_length. Qed.

  Lemma locate pieces : forall idx, idx < length (concat pieces) ->
    exists k c, nth_error pieces k = Some c /\ upto pieces k <= idx < upto pieces k + length c
      /\ nth_error c (idx - upto pieces k) = nth_error (concat pieces) idx.
  Proof.
    induction pieces as [|p l IH]; intros idx H; cbn [concat] in *; [cbn in H; lia|].
    destruct (Nat.lt_ge_cases idx (length p)) as [L|L].
    - exists 0, p. unfold upto. cbn [firstn concat length nth_error]. repeat split; try lia.
      rewrite nth_error_app1 by lia. f_equal. lia.
    - rewrite app_length in H. destruct (IH (idx - length p) ltac:(lia)) as (k & c & H1 & H2 & H3).
      exists (S k), c. assert (U : upto (p :: l) (S k) = length p + upto l k).
      { unfold upto. cbn [firstn concat]. now rewrite app_length. }
      rewrite U. cbn [nth_error]. repeat split; [exact H1|lia|lia|].
      rewrite nth_error_app2 by lia. rewrite <- H3. f_equal. lia.
  Qed.

  Lemma find_piece pieces d idx k : k <= length pieces -> upto pieces k <= idx ->
    (k < length pieces -> idx < upto pieces (S k)) -> Nat.log2 (length pieces) + 2 <= d ->
    lower_bound d (sums pieces) 0 (length (sums pieces)) (idx + 1) Nat.ltb = Ok k.
  Proof.
    intros Hk H1 H2 Hd. rewrite sums_length. apply lower_bound_correct_lemma.
    - split; [lia|]. rewrite sums_length. lia.
    - split; [lia|]. split.
      + intros i Hi. exists (upto pieces (S i)). split; [apply sums_nth; lia|].
        pose proof (upto_mono pieces (S i) k ltac:(lia)). apply Nat.ltb_lt. lia.
      + intros i Hi (x & E & L). rewrite sums_nth in E by lia. injection E as <-. apply Nat.ltb_lt in L.
        pose proof (upto_mono pieces (S k) (S i) ltac:(lia)). specialize (H2 ltac:(lia)). lia.
    - now rewrite Nat.sub_0_r.
  Qed.

  Lemma element_of pieces d idx : idx < length (concat pieces) -> Nat.log2 (length pieces) + 2 <= d ->
    exists k c, lower_bound d (sums pieces) 0 (length (sums pieces)) (idx + 1) Nat.ltb = Ok k
      /\ k < length pieces /\ nth_error pieces k = Some c
      /\ forall t, join_at (c ++ t) (sums pieces) k idx = rd (concat pieces) idx.
  Proof.
    intros H Hd. destruct (locate _ _ H) as (k & c & H1 & H2 & H3). exists k, c.
    assert (Hk : k < length pieces) by (apply nth_error_Some; congruence).
    split; [apply find_piece; auto; try lia; intros _; rewrite (upto_S _ _ _ H1); lia|].
    split; [exact Hk|]. split; [exact H1|]. intros t. unfold join_at.
    assert (P : (if k =? 0 then Ok 0 else rd (sums pieces) (k - 1)) = Ok (upto pieces k)).
    { destruct (k =? 0) eqn:E; [apply Nat.eqb_eq in E; subst k; reflexivity|]. apply Nat.eqb_neq in E.
      unfold rd. rewrite sums_nth by lia. do 2 f_equal. lia. }
    rewrite P. cbn [bind]. replace (upto pieces k <=? idx) with true by (symmetry; apply Nat.leb_le; lia).
    unfold rd. rewrite nth_error_app1 by lia. rewrite H3. reflexivity.
  Qed.
  Lemma element_none pieces d idx : length (concat pieces) <= idx -> Nat.log2 (length pieces) + 2 <= d ->
    lower_bound d (sums pieces) 0 (length (sums pieces)) (idx + 1) Nat.ltb = Ok (length (sums pieces)).
  Proof.
    intros H Hd. rewrite sums_length at 2. apply find_piece; auto; [|lia]. rewrite upto_all by lia. exact H.
  Qed.

  Lemma join_sizes_ok pieces d n : length pieces = n -> n < d ->
    join_sizes d (map (@length A) pieces) n = Ok (sums pieces).
  Proof.
    intros E Hd. unfold join_sizes.
    rewrite fx_partial_sum_partial_lemma.
    - cbn [bind]. unfold with_front. cbn [cbase coff csize]. f_equal. rewrite slice_full.
      fold (sums pieces). rewrite firstn_all2 by (rewrite sums_length; lia).
      unfold paste. cbn [firstn app Nat.add].
      rewrite skipn_all2 by (rewrite sums_length, repeat_length; lia). apply app_nil_r.
    - unfold wf. cbn [cbase coff csize]. rewrite repeat_length. lia.
    - split; [lia|]. lia.
    - rewrite map_length. lia.
    - cbn [csize]. rewrite map_length. lia.
  Qed.

  Lemma expand_filled (dflt : A) (f : nat -> res A) l r : length l <= r ->
    (forall i, i < length l -> f i = rd l i) -> (forall i, length l <= i < r -> f i = Ok dflt) ->
    expand f 0 r = Ok (filled dflt r l).
  Proof.
    intros Hl H1 H2.
    assert (L : length (filled dflt r l) = r) by (unfold filled; rewrite app_length, repeat_length; lia).
    replace (expand f 0 r) with (expand f 0 (length (filled dflt r l))) by now rewrite L.
    apply expand_rd. intros j Hj. cbn [Nat.add]. rewrite L in Hj.
    unfold rd, filled. destruct (Nat.lt_ge_cases j (length l)) as [C|C].
    - rewrite nth_error_app1 by lia. exact (H1 j C).
    - rewrite nth_error_app2 by lia. rewrite (H2 j) by lia.
      rewrite nth_error_repeat by lia. reflexivity.
  Qed.

  Lemma fit_concat S conts : fit S conts -> length (concat conts) <= S * length conts.
  Proof.
    induction conts as [|c l IH]; intros F; cbn [concat length]; [lia|]. rewrite app_length.
    pose proof (F c (or_introl eq_refl)). specialize (IH (fun x Hx => F x (or_intror Hx))). lia.
  Qed.

  Lemma log2_le_self n : Nat.log2 n <= n.
  Proof. apply Nat.log2_le_lin. lia. Qed.

  Lemma join_ra_correct_lemma (dflt : A) d S N conts : length conts = N -> fit S conts -> enough conts 0 d ->
    join_ra dflt d S N conts = Ok (filled dflt (S * N) (concat conts)).
  Proof.
    intros E F Hd. unfold enough in Hd. unfold join_ra. rewrite join_sizes_ok by lia. cbn [bind].
    unfold join_ra_1, join_size. pose proof (fit_concat _ _ F) as L. pose proof (log2_le_self (length conts)) as G.
    apply expand_filled.
    - now rewrite <- E.
    - intros i Hi. destruct (element_of conts d i Hi ltac:(lia)) as (k & c & H1 & H2 & H3 & H4).
      rewrite H1. cbn [bind]. unfold join_ra_2. rewrite sums_length.
      replace (k =? length conts) with false by (symmetry; apply Nat.eqb_neq; lia).
      unfold rd at 1. rewrite H3. cbn [bind]. specialize (H4 []). rewrite app_nil_r in H4. exact H4.
    - intros i Hi. rewrite element_none by lia. cbn [bind]. unfold join_ra_2. now rewrite Nat.eqb_refl.
  Qed.

  (** ** With a separator *)
  Fixpoint interl (sep : list A) conts : list (list A) :=
    match conts with
    | [] => []
    | [c] => [c]
    | c :: cs => c :: sep :: interl sep cs
    end.
  Lemma interl_cons sep c c' cs : interl sep (c :: c' :: cs) = c :: sep :: interl sep (c' :: cs).
  Proof. reflexivity. Qed.
  Lemma joined_cons (sep : list A) c c' cs : joined sep (c :: c' :: cs) = c ++ sep ++ joined sep (c' :: cs).
  Proof. reflexivity. Qed.

  Lemma interl_length sep conts : length (interl sep conts) = 2 * length conts - 1.
  Proof.
    induction conts as [|c [|c' cs] IH]; [reflexivity|reflexivity|]. rewrite interl_cons. cbn [length] in *. lia.
  Qed.
  Lemma interl_concat sep conts : concat (interl sep conts) = joined sep conts.
  Proof.
    induction conts as [|c [|c' cs] IH]; [reflexivity|cbn; apply app_nil_r|].
    rewrite interl_cons, joined_cons. cbn [concat]. rewrite IH. reflexivity.
  Qed.
  Lemma interl_sizes sep conts :
    map (@length A) (interl sep conts) = interleaved (length sep) (map (@length A) conts) true.
  Proof.
    unfold interleaved. induction conts as [|c [|c' cs] IH]; [reflexivity|reflexivity|].
    rewrite interl_cons. cbn [map concat app] in *. rewrite IH.
    destruct (concat (map (fun s => [s; length sep]) (map (@length A) cs))); reflexivity.
  Qed.
  Lemma interl_nth sep conts : forall k c, nth_error (interl sep conts) k = Some c ->
    if k mod 2 =? 1 then c = sep else nth_error conts (k / 2) = Some c.
  Proof.
    induction conts as [|x [|y cs] IH]; intros k c H.
    - destruct k; discriminate.
    - destruct k as [|[|k]]; try discriminate. exact H.
    - rewrite interl_cons in H. destruct k as [|[|k]]; cbn [nth_error] in H.
      + exact H.
      + injection H as <-. reflexivity.
      + specialize (IH _ _ H). replace (S (S k)) with (k + 1 * 2) by lia.
        rewrite Nat.mod_add, Nat.div_add by lia. destruct (k mod 2 =? 1); [exact IH|].
        rewrite Nat.add_comm. exact IH.
  Qed.

  Lemma joined_length sep conts : length (joined sep conts) = length (concat conts) + length sep * (length conts - 1).
  Proof.
    induction conts as [|c [|c' cs] IH]; [cbn; lia|cbn; rewrite app_nil_r; lia|].
    rewrite joined_cons, !app_length, IH. cbn [concat]. rewrite !app_length. cbn [length]. nia.
  Qed.

  Lemma str_size_raw (dflt : A) literal sep : str_size literal (sep_raw dflt literal sep) = length sep.
  Proof. destruct literal; unfold str_size, sep_raw; [rewrite app_length; cbn [length]; lia|reflexivity]. Qed.

  Lemma join_sep_size_ok S N p : 0 < S -> 0 < N \/ p = 0 -> join_sep_size S N p = Ok ((S + p) * N - p).
  Proof.
    intros HS H. unfold join_sep_size. destruct S as [|s]; [lia|]. cbn [Nat.eqb].
    destruct (p <=? (Datatypes.S s + p) * N) eqn:E; [reflexivity|]. exfalso. apply Nat.leb_gt in E.
    destruct H as [H| ->]; [|lia]. destruct N; [lia|]. cbn [Nat.mul] in E. nia.
  Qed.

  Lemma fit_joined S sep conts : fit S conts -> 0 < length conts ->
    length (joined sep conts) <= (S + length sep) * length conts - length sep.
  Proof.
    intros F H. rewrite joined_length. pose proof (fit_concat _ _ F).
    destruct (length conts) as [|n]; [lia|]. replace (Datatypes.S n - 1) with n by lia. nia.
  Qed.

  Lemma join_sep_ra_partial_lemma (dflt : A) d S N conts literal sep :
    length conts = N -> fit S conts -> 0 < S -> 0 < N \/ sep = [] -> enough conts (length sep) d ->
    join_sep_ra dflt d S N conts literal sep
    = Ok (filled dflt ((S + length sep) * N - length sep) (joined sep conts)).
  Proof.
    intros E F HS HN Hd. unfold enough in Hd. unfold join_sep_ra. cbv zeta. rewrite str_size_raw.
    rewrite join_sep_size_ok; [|exact HS|destruct HN as [HN| ->]; [left; exact HN|right; reflexivity]].
    cbn [bind]. rewrite size_enumed_correct_lemma by (rewrite map_length; nia). cbn [bind].
    rewrite <- interl_sizes.
    assert (L : length (interl sep conts) = if N =? 0 then 0 else N * 2 - 1).
    { rewrite interl_length. destruct (N =? 0) eqn:Z0; [apply Nat.eqb_eq in Z0; lia|lia]. }
    rewrite (join_sizes_ok _ _ _ L) by (rewrite <- L, interl_length; nia). cbn [bind].
    unfold join_sep_ra_1. pose proof (log2_le_self (length (interl sep conts))) as G. rewrite interl_length in G at 2.
    assert (GD : Nat.log2 (length (interl sep conts)) + 2 <= d) by nia.
    rewrite <- interl_concat. apply expand_filled.
    - rewrite interl_concat. destruct N as [|N]; [destruct conts; [cbn; lia|discriminate]|].
      rewrite <- E. apply fit_joined; [exact F|lia].
    - intros i Hi. destruct (element_of _ d i Hi GD) as (k & c & H1 & H2 & H3 & H4).
      rewrite H1. cbn [bind]. unfold join_sep_ra_2. rewrite sums_length.
      replace (k =? length (interl sep conts)) with false by (symmetry; apply Nat.eqb_neq; lia).
      pose proof (interl_nth _ _ _ _ H3) as HK. destruct (k mod 2 =? 1).
      + subst c. unfold sep_raw. destruct literal; [apply H4|]. specialize (H4 []). now rewrite app_nil_r in H4.
      + unfold rd at 1. rewrite HK. cbn [bind]. specialize (H4 []). now rewrite app_nil_r in H4.
    - intros i Hi. rewrite element_none; [|lia|exact GD]. cbn [bind]. unfold join_sep_ra_2. now rewrite Nat.eqb_refl.
  Qed.

  (** ** Forward iterators *)
  Lemma make_filled (dflt : A) r l : make_n dflt r l = filled dflt r l.
  Proof. reflexivity. Qed.

  Lemma join_sep_fwd_impl_in (dflt : A) conts raw r k (sep : bool) c : (if sep then Ok raw else rd conts k) = Ok c ->
    forall todo pre d args, c = pre ++ todo -> length todo < d ->
    join_sep_fwd_impl dflt d conts raw r k sep (Some (length pre)) args
    = if r <=? length args + length todo then
        (if length args <=? r then Ok (firstn r (args ++ todo))
         else join_sep_fwd_impl dflt d conts raw r k sep (Some (length pre)) args)
      else join_sep_fwd_impl dflt (d - length todo - 1) conts raw r (if sep then S k else k) (negb sep) None (args ++ todo).
  Proof.
    intros HC. induction todo as [|x todo IH]; intros pre d args Hc Hd; (destruct d as [|d]; [cbn in Hd; lia|]).
    - cbn [length]. rewrite Nat.add_0_r, app_nil_r. destruct (r <=? length args) eqn:R.
      + apply Nat.leb_le in R. destruct (length args <=? r) eqn:R'; [|reflexivity]. apply Nat.leb_le in R'.
        cbn [join_sep_fwd_impl]. replace (r =? length args) with true by (symmetry; apply Nat.eqb_eq; lia).
        unfold make_n. replace (r - length args) with 0 by lia. cbn [repeat]. rewrite app_nil_r, firstn_all2 by lia. reflexivity.
      + apply Nat.leb_gt in R. cbn [join_sep_fwd_impl]. replace (r =? length args) with false by (symmetry; apply Nat.eqb_neq; lia).
        rewrite HC. cbn [bind]. rewrite Hc, app_nil_r, Nat.eqb_refl. cbn [negb].
        replace (S d - 0 - 1) with d by lia. destruct sep; reflexivity.
    - cbn [length] in *. destruct (length args <=? r) eqn:R'.
      2:{ apply Nat.leb_gt in R'. replace (r <=? length args + S (length todo)) with true by (symmetry; apply Nat.leb_le; lia). reflexivity. }
      apply Nat.leb_le in R'. cbn [join_sep_fwd_impl]. destruct (r =? length args) eqn:R.
      + apply Nat.eqb_eq in R. replace (r <=? length args + S (length todo)) with true by (symmetry; apply Nat.leb_le; lia).
        unfold make_n. replace (r - length args) with 0 by lia. cbn [repeat]. rewrite app_nil_r.
        rewrite firstn_app. replace (r - length args) with 0 by lia. cbn [firstn]. rewrite app_nil_r, firstn_all2 by lia. reflexivity.
      + apply Nat.eqb_neq in R. rewrite HC. cbn [bind].
        replace (length pre =? length c) with false by (symmetry; apply Nat.eqb_neq; rewrite Hc, app_length; cbn [length]; lia).
        cbn [negb]. unfold rd at 1. rewrite Hc, nth_error_app2, Nat.sub_diag by lia. cbn [nth_error bind].
        replace (S (length pre)) with (length (pre ++ [x])) by (rewrite app_length; cbn [length]; lia).
        assert (LA : length (args ++ [x]) = S (length args)) by (rewrite app_length; cbn [length]; lia).
        rewrite (IH (pre ++ [x]) d (args ++ [x])); [|rewrite <- app_assoc; exact Hc|lia].
        rewrite LA. replace (S (length args) + length todo) with (length args + S (length todo)) by lia.
        replace (S (length args) <=? r) with true by (symmetry; apply Nat.leb_le; lia).
        rewrite <- app_assoc. cbn [app]. replace (d - length todo - 1) with (S d - S (length todo) - 1) by lia. reflexivity.
  Qed.

  Lemma join_sep_fwd_impl_ok (dflt : A) raw r : forall todo conts pre d args,
    conts = pre ++ todo -> length args <= r ->
    length (concat todo) + (length raw + 4) * length todo < d ->
    join_sep_fwd_impl dflt d conts raw r (length pre) false None args
    = Ok (filled dflt r (firstn r (args ++ concat (map (fun c => c ++ raw) todo)))).
  Proof.
    induction todo as [|c todo IH]; intros conts pre d args HC HA Hd; (destruct d as [|d]; [cbn in Hd; lia|]).
    - cbn [map concat]. rewrite app_nil_r, firstn_all2 by lia. cbn [join_sep_fwd_impl].
      rewrite HC, app_nil_r, Nat.eqb_refl. cbn [negb]. destruct (r =? length args); reflexivity.
    - cbn [concat length] in Hd. rewrite app_length in Hd. cbn [map concat]. rewrite <- app_assoc.
      assert (FU : forall l : list A, r <= length l -> filled dflt r (firstn r l) = firstn r l).
      { intros l Hl. unfold filled. rewrite firstn_length. replace (r - Nat.min r (length l)) with 0 by lia. apply app_nil_r. }
      assert (FA : forall l t : list A, r <= length l -> firstn r (l ++ t) = firstn r l).
      { intros l t Hl. rewrite firstn_app. replace (r - length l) with 0 by lia. cbn [firstn]. apply app_nil_r. }
      cbn [join_sep_fwd_impl]. destruct (r =? length args) eqn:R.
      + apply Nat.eqb_eq in R. rewrite FA by lia. rewrite firstn_all2 by lia. reflexivity.
      + apply Nat.eqb_neq in R.
        replace (length pre =? length conts) with false
          by (symmetry; apply Nat.eqb_neq; rewrite HC, app_length; cbn [length]; lia). cbn [negb].
        assert (RD : (if false then Ok raw else rd conts (length pre)) = Ok c).
        { unfold rd. rewrite HC, nth_error_app2, Nat.sub_diag by lia. reflexivity. }
        pose proof (join_sep_fwd_impl_in dflt conts raw r (length pre) false c RD c [] d args eq_refl ltac:(nia)) as S1.
        cbn [length] in S1. rewrite S1. clear S1. destruct (r <=? length args + length c) eqn:R1.
        * apply Nat.leb_le in R1. replace (length args <=? r) with true by (symmetry; apply Nat.leb_le; lia).
          assert (L3 : r <= length (args ++ c)) by (rewrite app_length; lia).
          rewrite (app_assoc args c), (FA (args ++ c) _ L3), (FU _ L3). reflexivity.
        * apply Nat.leb_gt in R1.
          assert (D1 : exists d1, d - length c - 1 = S d1 /\ length raw < d1
             /\ length (concat todo) + (length raw + 4) * length todo < d1 - length raw - 1) by (exists (d - length c - 2); nia).
          destruct D1 as (d1 & -> & D1 & D2). cbn [join_sep_fwd_impl].
          assert (LA : length (args ++ c) = length args + length c) by apply app_length.
          replace (r =? length (args ++ c)) with false by (symmetry; apply Nat.eqb_neq; lia).
          replace (length pre =? length conts) with false
            by (symmetry; apply Nat.eqb_neq; rewrite HC, app_length; cbn [length]; lia). cbn [negb].
          pose proof (join_sep_fwd_impl_in dflt conts raw r (length pre) true raw eq_refl raw [] d1 (args ++ c) eq_refl D1) as S2.
          cbn [length] in S2. rewrite S2. clear S2. rewrite LA. destruct (r <=? length args + length c + length raw) eqn:R2.
          -- apply Nat.leb_le in R2. replace (length args + length c <=? r) with true by (symmetry; apply Nat.leb_le; lia).
             replace (args ++ c ++ raw ++ concat (map (fun c => c ++ raw) todo))
               with (((args ++ c) ++ raw) ++ concat (map (fun c => c ++ raw) todo)) by (now rewrite <- !app_assoc).
             assert (L3 : r <= length ((args ++ c) ++ raw)) by (rewrite !app_length; lia).
             rewrite (FA ((args ++ c) ++ raw) _ L3), (FU _ L3). reflexivity.
          -- apply Nat.leb_gt in R2. cbn [negb].
             replace (S (length pre)) with (length (pre ++ [c])) by (rewrite app_length; cbn [length]; lia).
             rewrite (IH conts (pre ++ [c]) _ ((args ++ c) ++ raw)); [|rewrite <- app_assoc; exact HC|rewrite !app_length; lia|lia].
             now rewrite <- !app_assoc.
  Qed.

  (** join without a separator takes the same steps as with an empty one, but fewer *)
  Lemma join_fwd_impl_in (dflt : A) conts r k c : rd conts k = Ok c ->
    forall todo pre d args, c = pre ++ todo -> length args <= r -> length todo < d ->
    join_fwd_impl dflt d conts r k (Some (length pre)) args
    = if r <=? length args + length todo then Ok (firstn r (args ++ todo))
      else join_fwd_impl dflt (d - length todo - 1) conts r (S k) None (args ++ todo).
  Proof.
    intros HC. induction todo as [|x todo IH]; intros pre d args Hc HA Hd; (destruct d as [|d]; [cbn in Hd; lia|]).
    - cbn [length]. rewrite Nat.add_0_r, app_nil_r. cbn [join_fwd_impl]. destruct (r =? length args) eqn:R.
      + apply Nat.eqb_eq in R. replace (r <=? length args) with true by (symmetry; apply Nat.leb_le; lia).
        unfold make_n. replace (r - length args) with 0 by lia. cbn [repeat]. rewrite app_nil_r, firstn_all2 by lia. reflexivity.
      + apply Nat.eqb_neq in R. replace (r <=? length args) with false by (symmetry; apply Nat.leb_gt; lia).
        rewrite HC. cbn [bind]. rewrite Hc, app_nil_r, Nat.eqb_refl. cbn [negb].
        replace (S d - 0 - 1) with d by lia. reflexivity.
    - cbn [length] in *. cbn [join_fwd_impl]. destruct (r =? length args) eqn:R.
      + apply Nat.eqb_eq in R. replace (r <=? length args + S (length todo)) with true by (symmetry; apply Nat.leb_le; lia).
        unfold make_n. replace (r - length args) with 0 by lia. cbn [repeat]. rewrite app_nil_r.
        rewrite firstn_app. replace (r - length args) with 0 by lia. cbn [firstn]. rewrite app_nil_r, firstn_all2 by lia. reflexivity.
      + apply Nat.eqb_neq in R. rewrite HC. cbn [bind].
        replace (length pre =? length c) with false by (symmetry; apply Nat.eqb_neq; rewrite Hc, app_length; cbn [length]; lia).
        cbn [negb]. unfold rd at 1. rewrite Hc, nth_error_app2, Nat.sub_diag by lia. cbn [nth_error bind].
        replace (S (length pre)) with (length (pre ++ [x])) by (rewrite app_length; cbn [length]; lia).
        assert (LA : length (args ++ [x]) = S (length args)) by (rewrite app_length; cbn [length]; lia).
        rewrite (IH (pre ++ [x]) d (args ++ [x])); [|rewrite <- app_assoc; exact Hc|lia|lia].
        rewrite LA. replace (S (length args) + length todo) with (length args + S (length todo)) by lia.
        rewrite <- app_assoc. cbn [app]. replace (d - length todo - 1) with (S d - S (length todo) - 1) by lia. reflexivity.
  Qed.

  Lemma join_fwd_impl_ok (dflt : A) r : forall todo conts pre d args,
    conts = pre ++ todo -> length args <= r -> length (concat todo) + 2 * length todo < d ->
    join_fwd_impl dflt d conts r (length pre) None args = Ok (filled dflt r (firstn r (args ++ concat todo))).
  Proof.
    induction todo as [|c todo IH]; intros conts pre d args HC HA Hd; (destruct d as [|d]; [cbn in Hd; lia|]).
    - cbn [concat]. rewrite app_nil_r, firstn_all2 by lia. cbn [join_fwd_impl].
      rewrite HC, app_nil_r, Nat.eqb_refl. cbn [negb]. destruct (r =? length args); reflexivity.
    - cbn [concat length] in Hd. rewrite app_length in Hd. cbn [concat].
      assert (FU : forall l : list A, r <= length l -> filled dflt r (firstn r l) = firstn r l).
      { intros l Hl. unfold filled. rewrite firstn_length. replace (r - Nat.min r (length l)) with 0 by lia. apply app_nil_r. }
      assert (FA : forall l t : list A, r <= length l -> firstn r (l ++ t) = firstn r l).
      { intros l t Hl. rewrite firstn_app. replace (r - length l) with 0 by lia. cbn [firstn]. apply app_nil_r. }
      cbn [join_fwd_impl]. destruct (r =? length args) eqn:R.
      + apply Nat.eqb_eq in R. rewrite FA by lia. rewrite firstn_all2 by lia. reflexivity.
      + apply Nat.eqb_neq in R.
        replace (length pre =? length conts) with false
          by (symmetry; apply Nat.eqb_neq; rewrite HC, app_length; cbn [length]; lia). cbn [negb].
        assert (RD : rd conts (length pre) = Ok c).
        { unfold rd. rewrite HC, nth_error_app2, Nat.sub_diag by lia. reflexivity. }
        pose proof (join_fwd_impl_in dflt conts r (length pre) c RD c [] d args eq_refl HA ltac:(lia)) as S1.
        cbn [length] in S1. rewrite S1. clear S1. destruct (r <=? length args + length c) eqn:R1.
        * apply Nat.leb_le in R1.
          assert (L3 : r <= length (args ++ c)) by (rewrite app_length; lia).
          rewrite (app_assoc args c), (FA (args ++ c) _ L3), (FU _ L3). reflexivity.
        * apply Nat.leb_gt in R1.
          replace (S (length pre)) with (length (pre ++ [c])) by (rewrite app_length; cbn [length]; lia).
          rewrite (IH conts (pre ++ [c]) _ (args ++ c)); [|rewrite <- app_assoc; exact HC|rewrite app_length; lia|lia].
          now rewrite <- app_assoc.
  Qed.

  Lemma join_fwd_correct_lemma (dflt : A) d S N conts : length conts <= N -> fit S conts -> enough conts 0 d ->
    join_fwd dflt d S N conts = Ok (filled dflt (S * N) (concat conts)).
  Proof.
    intros E F Hd. unfold enough in Hd. unfold join_fwd, join_size.
    pose proof (join_fwd_impl_ok dflt (S * N) conts conts [] d [] eq_refl (Nat.le_0_l _) ltac:(lia)) as P.
    cbn [length] in P. rewrite P.
    cbn [app]. rewrite firstn_all2; [reflexivity|]. pose proof (fit_concat _ _ F). nia.
  Qed.

  Lemma join_sep_fwd_lemma (dflt : A) d S N conts literal sep : 0 < S -> 0 < N \/ sep = [] ->
    enough conts (length sep + 1) d ->
    let r := (S + length sep) * N - length sep in
    join_sep_fwd dflt d S N conts literal sep
    = Ok (filled dflt r (firstn r (concat (map (fun c => c ++ sep_raw dflt literal sep) conts)))).
  Proof.
    intros HS HN Hd r. unfold enough in Hd. unfold join_sep_fwd. cbv zeta. rewrite str_size_raw.
    rewrite join_sep_size_ok; [|exact HS|destruct HN as [HN| ->]; [left; exact HN|right; reflexivity]].
    cbn [bind]. fold r.
    assert (HL : length (sep_raw dflt literal sep) <= length sep + 1)
      by (destruct literal; unfold sep_raw; [rewrite app_length; cbn [length]|]; lia).
    exact (join_sep_fwd_impl_ok dflt (sep_raw dflt literal sep) r conts conts [] d [] eq_refl (Nat.le_0_l _) ltac:(nia)).
  Qed.

  Lemma joined_concat (sep : list A) conts : conts <> [] -> concat (map (fun c => c ++ sep) conts) = joined sep conts ++ sep.
  Proof.
    induction conts as [|c [|c' cs] IH]; intros H; [congruence|cbn; now rewrite app_nil_r|].
    rewrite joined_cons. cbn [map concat] in *. rewrite IH by discriminate. now rewrite <- !app_assoc.
  Qed.

  Lemma full_concat S conts : full S conts -> length (concat conts) = S * length conts.
  Proof.
    induction conts as [|c l IH]; intros F; cbn [concat length]; [lia|]. rewrite app_length.
    rewrite (F c (or_introl eq_refl)), (IH (fun x Hx => F x (or_intror Hx))). lia.
  Qed.

  Lemma join_sep_fwd_partial_lemma (dflt : A) d S N conts sep : length conts = N -> full S conts ->
    0 < S -> 0 < N \/ sep = [] -> enough conts (length sep + 1) d ->
    join_sep_fwd dflt d S N conts false sep = Ok (joined sep conts).
  Proof.
    intros E F HS HN Hd. rewrite join_sep_fwd_lemma by assumption. cbv zeta. cbn [sep_raw].
    destruct conts as [|c cs].
    - cbn [length] in E. subst N. rewrite Nat.mul_0_r. cbn. reflexivity.
    - rewrite joined_concat by discriminate.
      assert (L : length (joined sep (c :: cs)) = (S + length sep) * N - length sep).
      { rewrite joined_length, (full_concat _ _ F), E. destruct N; [discriminate|]. replace (Datatypes.S N - 1) with N by lia. nia. }
      unfold filled. rewrite firstn_app, <- L, Nat.sub_diag, firstn_all. cbn [firstn]. rewrite app_nil_r, Nat.sub_diag.
      cbn [repeat]. now rewrite app_nil_r.
  Qed.

  (** ** Strings *)
  Lemma make_string_lemma (dflt : A) eqb : (forall x y, eqb x y = true <-> x = y) -> forall l r,
    ~ In dflt l -> make_string dflt eqb (filled dflt r l) = l.
  Proof.
    intros HE l r. unfold filled. generalize (r - length l). intros n.
    assert (RF : eqb dflt dflt = true) by now apply HE.
    induction l as [|x l IH]; intros H; cbn [app].
    - destruct n; cbn [repeat make_string]; [reflexivity|]. now rewrite RF.
    - cbn [make_string]. destruct (eqb x dflt) eqn:E; [apply HE in E; subst; exfalso; apply H; now left|].
      rewrite IH; [reflexivity|]. intros Hx. apply H. now right.
  Qed.

  Lemma joined_in (sep : list A) x conts : In x (joined sep conts) -> In x sep \/ exists c, In c conts /\ In x c.
  Proof.
    induction conts as [|c [|c' cs] IH]; intros H; [contradiction|right; exists c; cbn; tauto|].
    rewrite joined_cons in H. apply in_app_or in H. destruct H as [H|H]; [right; exists c; cbn; tauto|].
    apply in_app_or in H. destruct H as [H|H]; [tauto|]. destruct (IH H) as [?|(y & Y & Z)]; [tauto|].
    right. exists y. split; [now right|exact Z].
  Qed.
  Lemma joined_nil conts : joined [] conts = concat conts.
  Proof.
    induction conts as [|c [|c' cs] IH]; [reflexivity|cbn; now rewrite app_nil_r|].
    rewrite joined_cons, IH. reflexivity.
  Qed.

  Lemma join_string_lemma (dflt : A) eqb d S N conts literal sep : (forall x y, eqb x y = true <-> x = y) ->
    length conts = N -> fit S conts -> 0 < S -> 0 < N \/ sep = [] -> enough conts (length sep) d ->
    ~ In dflt sep -> (forall c, In c conts -> ~ In dflt c) ->
    exists args, join_sep_ra dflt d S N conts literal sep = Ok args /\ make_string dflt eqb args = joined sep conts.
  Proof.
    intros HE E F HS HN Hd H1 H2. eexists. split; [now apply join_sep_ra_partial_lemma|].
    apply make_string_lemma; [exact HE|]. intros H. apply joined_in in H. destruct H as [H|(c & HC & H)]; [tauto|].
    exact (H2 c HC H).
  Qed.
  Lemma join_string_plain_lemma (dflt : A) eqb d S N conts : (forall x y, eqb x y = true <-> x = y) ->
    length conts = N -> fit S conts -> enough conts 0 d -> (forall c, In c conts -> ~ In dflt c) ->
    exists args, join_ra dflt d S N conts = Ok args /\ make_string dflt eqb args = concat conts.
  Proof.
    intros HE E F Hd H2. eexists. split; [now apply join_ra_correct_lemma|].
    apply make_string_lemma; [exact HE|]. intros H. apply in_concat in H. destruct H as (c & HC & H).
    exact (H2 c HC H).
  Qed.
End Pieces.
