(** Proofs about valarrays: construction, access and element-wise operations. *)
From Coq Require Import List Arith ZArith Bool Lia.
From Coq Require Import ZifyBool ZifyNat.
From Verif Require Import Base BaseProof SearchSpec SearchProof OrderSpec OrderProof ListFacts MutSpec MutModel MutProof MutProps
  OrderModel OrderProps NumModel NumProps FixModel FixSpec FixProof FixProps ValModel ValSpec.
Import ListNotations.
Open Scope nat_scope.

Section Basics.
  Context {A : Type}.
  Variable z : A.
  Implicit Types (c : cont A) (xs ys b : list A).

  Lemma wr_ok b i x : i < length b -> wr b i x = Ok (upd b i x).
  Proof. intros H. unfold wr. destruct (Nat.ltb_spec i (length b)); [reflexivity|lia]. Qed.

  Lemma reset_tail_eq : forall b n, n <= length b -> reset_tail z n b = firstn n b ++ repeat z (length b - n).
  Proof.
    induction b as [|x b IH]; intros [|n] H; cbn [length] in *; try lia; try reflexivity.
    - cbn [reset_tail firstn app]. specialize (IH 0 ltac:(lia)). rewrite IH.
      cbn [firstn app]. now replace (S (length b) - 0) with (S (length b - 0)) by lia.
    - cbn [reset_tail firstn app]. f_equal. rewrite IH by lia. reflexivity.
  Qed.

  Lemma holds_wf N c xs : holds N c xs -> wf c.
  Proof. intros (E & F & G & H & _). unfold wf. lia. Qed.

  Lemma holds_valid N c xs : holds N c xs -> valid (cbase c) 0 (csize c).
  Proof. intros (E & F & G & H & _). unfold valid. lia. Qed.

  Lemma holds_slice N c xs : holds N c xs -> slice (cbase c) 0 (csize c) = xs.
  Proof.
    intros (E & F & G & H & I). unfold slice. now rewrite G, Nat.sub_0_r.
  Qed.

  Lemma holds_split N c xs : holds N c xs -> exists t, cbase c = xs ++ t /\ length t = N - length xs.
  Proof.
    intros (E & F & G & H & I). exists (skipn (length xs) (cbase c)). split.
    - rewrite <- I at 1. symmetry. apply firstn_skipn.
    - rewrite skipn_length. lia.
  Qed.

  Lemma holds_nth N c xs i : holds N c xs -> i < length xs -> nth_error (cbase c) i = nth_error xs i.
  Proof.
    intros H L. destruct (holds_split _ _ _ H) as (t & -> & _). now rewrite nth_error_app1.
  Qed.

  Lemma varray_holds_lemma N xs : length xs <= N -> holds N (varray z N xs) xs.
  Proof.
    intros L. unfold varray, holds. cbn [coff csize cbase]. rewrite app_length, repeat_length.
    repeat split; try lia. rewrite firstn_app, firstn_all, Nat.sub_diag. apply app_nil_r.
  Qed.

  Lemma remade_front N c xs out r : holds N c xs -> length out <= length xs -> r = Ok (with_front c out) ->
    vremade z r = Ok (varray z N (out ++ skipn (length out) xs)).
  Proof.
    intros H L ->. pose proof (holds_wf _ _ _ H) as W.
    destruct H as (E & F & G & HL & I). unfold vremade. cbn [bind].
    rewrite with_front_all by lia. cbn [cbase coff csize]. rewrite E. unfold paste. cbn [firstn app].
    rewrite reset_tail_eq; [|rewrite app_length, skipn_length; lia].
    unfold varray. rewrite G. f_equal. f_equal.
    - rewrite !app_length, !skipn_length.
      rewrite firstn_app. rewrite firstn_all2 by lia.
      replace (firstn (length xs - length out) (skipn (0 + length out) (cbase c))) with (skipn (length out) xs).
      + f_equal. f_equal. lia.
      + cbn [Nat.add]. rewrite <- I at 1. rewrite skipn_firstn_comm. reflexivity.
    - rewrite app_length, skipn_length. lia.
  Qed.

  Lemma remade_full N c xs out r : holds N c xs -> length out = length xs -> r = Ok (with_front c out) ->
    vremade z r = Ok (varray z N out).
  Proof.
    intros H L E. rewrite (remade_front N c xs out r H ltac:(lia) E).
    rewrite L, skipn_all. now rewrite app_nil_r.
  Qed.

  (** ** Construction *)
  Lemma expand_map (f : nat -> res A) (g : nat -> A) : forall n i, (forall j, i <= j < i + n -> f j = Ok (g j)) ->
    expand f i n = Ok (map g (seq i n)).
  Proof.
    induction n as [|n IH]; intros i H; [reflexivity|]. cbn [expand seq map]. rewrite H by lia. cbn [bind].
    rewrite IH by (intros j Hj; apply H; lia). reflexivity.
  Qed.

  Lemma expand_front (f : nat -> res A) xs N : length xs <= N -> reads f xs ->
    expand (fun i => if i <? length xs then f i else Ok z) 0 N = Ok (xs ++ repeat z (N - length xs)).
  Proof.
    intros L R.
    rewrite (expand_map _ (fun i => nth i (xs ++ repeat z (N - length xs)) z)).
    - f_equal. apply nth_ext with (d := z) (d' := z).
      + rewrite map_length, seq_length, app_length, repeat_length. lia.
      + intros i Hi. rewrite map_length, seq_length in Hi.
        rewrite (nth_indep _ z (nth 0 (xs ++ repeat z (N - length xs)) z)) by (rewrite map_length, seq_length; lia).
        rewrite (map_nth (fun i => nth i (xs ++ repeat z (N - length xs)) z) (seq 0 N) 0 i).
        rewrite seq_nth by lia. reflexivity.
    - intros j Hj. destruct (Nat.ltb_spec j (length xs)).
      + rewrite app_nth1 by lia. apply R. apply nth_error_nth'. lia.
      + rewrite app_nth2 by lia. rewrite nth_repeat. reflexivity.
  Qed.

  Lemma ctor_seq_correct_lemma N f xs : reads f xs ->
    exists r, ctor_seq z N f (length xs) = Ok r /\ if_fits N xs r z.
  Proof.
    intros R. unfold ctor_seq, checked, if_fits.
    destruct (Nat.leb_spec (length xs) N).
    - rewrite expand_front by assumption. cbn [bind]. eexists. split; [reflexivity|].
      split; [intros _; reflexivity|lia].
    - rewrite (expand_map _ (fun i => nth i xs z)).
      + cbn [bind]. eexists. split; [reflexivity|]. split; [lia|reflexivity].
      + intros j Hj. destruct (Nat.ltb_spec j (length xs)); [|lia]. apply R. apply nth_error_nth'. lia.
  Qed.

  Lemma reads_repeat (x : A) n : reads (fun i => Ok x) (repeat x n).
  Proof.
    intros i y H. apply nth_error_In in H. apply repeat_spec in H. now subst.
  Qed.

  Lemma expand_ext (f g : nat -> res A) : (forall i, f i = g i) -> forall n i, expand f i n = expand g i n.
  Proof. intros H. induction n as [|n IH]; intros i; [reflexivity|]. cbn [expand]. now rewrite H, IH. Qed.

  Lemma ctor_value_correct_lemma N x n :
    exists r, ctor_value z N x n = Ok r /\ if_fits N (repeat x n) r z.
  Proof.
    destruct (ctor_seq_correct_lemma N (fun _ => Ok x) (repeat x n) (reads_repeat x n)) as (r & E & F).
    exists r. split; [|exact F]. rewrite <- E. unfold ctor_value, ctor_seq. rewrite repeat_length.
    erewrite expand_ext; [reflexivity|]. intros i. cbn beta. now destruct (i <? n).
  Qed.

  Lemma ctor_size_correct_lemma N n : if_fits N (repeat z n) (ctor_size z N n) z.
  Proof.
    unfold if_fits, ctor_size, checked, varray. rewrite repeat_length. destruct (Nat.leb_spec n N); split; intros H'; try lia.
    - rewrite <- repeat_app. now replace (n + (N - n)) with N by lia.
    - reflexivity.
  Qed.

  (** ** Access *)
  Lemma vget_correct_lemma N c xs i x : holds N c xs -> nth_error xs i = Some x ->
    vget c i = Ok x /\ vat c i = Ok (Returns x).
  Proof.
    intros H E. assert (i < length xs) as L by (apply nth_error_Some; congruence).
    unfold vat, vget. rewrite (rd_ok (cbase c) i x) by (rewrite (holds_nth N c xs); assumption).
    destruct H as (_ & _ & G & _). rewrite G. destruct (Nat.ltb_spec i (length xs)); [|lia]. now split.
  Qed.

  Lemma vat_correct_lemma N c xs i : holds N c xs -> length xs <= i -> vat c i = Ok (Throws BstrModel.Out_of_range_error).
  Proof.
    intros (_ & _ & G & _) L. unfold vat. rewrite G. destruct (Nat.ltb_spec i (length xs)); [lia|reflexivity].
  Qed.

  Lemma vfront_back_correct_lemma N c xs : holds N c xs -> forall x y m,
    (xs = x :: m -> vfront c = Ok x) /\ (xs = m ++ [y] -> vback c = Ok y).
  Proof.
    intros H x y m. split; intros E.
    - unfold vfront. apply rd_ok. rewrite (holds_nth N c xs); [now subst|assumption|subst; cbn; lia].
    - unfold vback. pose proof H as (_ & _ & G & _).
      assert (length xs = S (length m)) as L by (subst; rewrite app_length; cbn; lia).
      rewrite G, L. cbn [Nat.eqb]. unfold vget. apply rd_ok. replace (S (length m) - 1) with (length m) by lia.
      rewrite (holds_nth N c xs) by (assumption || lia). subst. rewrite nth_error_app2, Nat.sub_diag by lia. reflexivity.
  Qed.

  Lemma vset_correct_lemma N c xs i x : holds N c xs -> i < length xs ->
    exists c', vset c i x = Ok c' /\ holds N c' (upd xs i x).
  Proof.
    intros H L. destruct (holds_split _ _ _ H) as (t & E & T). pose proof H as (O & F & G & HL & I).
    unfold vset. rewrite wr_ok by lia. cbn [bind]. eexists. split; [reflexivity|].
    assert (length (upd xs i x) = length xs) as LU by apply upd_length.
    unfold holds. cbn [coff cbase csize]. rewrite upd_length, LU. repeat split; try assumption.
    apply list_ext. intros j.
    destruct (Nat.lt_ge_cases j (length xs)) as [Hj|Hj].
    - rewrite nth_error_firstn by lia. destruct (Nat.eq_dec i j) as [->|Ne].
      + rewrite !upd_eq by lia. reflexivity.
      + rewrite !upd_neq by lia. now rewrite (holds_nth N c xs).
    - rewrite !(proj2 (nth_error_None _ _)); [reflexivity|lia|].
      rewrite firstn_length. lia.
  Qed.

  (** ** Whole-array modifiers *)
  Lemma firstn_repeat (x : A) : forall n m, n <= m -> firstn n (repeat x m) = repeat x n.
  Proof.
    induction n as [|n IH]; intros [|m] H; try reflexivity; [lia|]. cbn [repeat firstn]. now rewrite IH by lia.
  Qed.

  Lemma vfill_correct_lemma N c xs x : holds N c xs -> holds N (vfill c x) (repeat x (length xs)).
  Proof.
    intros (O & F & G & HL & I). unfold vfill, holds. cbn [coff cbase csize].
    rewrite !repeat_length. repeat split; try assumption. rewrite F. now apply firstn_repeat.
  Qed.

  Lemma vresize_correct_lemma N c xs n x : holds N c xs ->
    (n <= N -> exists c', vresize c n x = (c', None) /\ holds N c' (repeat x n)) /\
    (N < n -> vresize c n x = (c, Some BstrModel.Length_error)).
  Proof.
    intros (O & F & G & HL & I). unfold vresize. rewrite F. destruct (Nat.leb_spec n N); split; intros L; try lia.
    - eexists. split; [reflexivity|]. unfold holds. cbn [coff cbase csize]. rewrite !repeat_length.
      repeat split; try assumption. now apply firstn_repeat.
    - reflexivity.
  Qed.

  Lemma copy_in_ok (f : nat -> res A) : forall ys i b, (forall j y, nth_error ys j = Some y -> f (i + j) = Ok y) ->
    i + length ys <= length b -> copy_in f i (length ys) b = Ok (paste b i ys).
  Proof.
    induction ys as [|y ys IH]; intros i b R L; cbn [length] in *.
    - cbn [copy_in]. f_equal. symmetry. apply paste_nil.
    - cbn [copy_in]. rewrite <- (Nat.add_0_r i) at 1. rewrite (R 0 y eq_refl). cbn [bind].
      rewrite wr_ok by lia. cbn [bind]. rewrite IH.
      + f_equal. apply paste_ext; cbn [length].
        * lia.
        * intros j Hj. destruct (Nat.eq_dec i j) as [<-|Ne].
          -- rewrite nth_paste_out by (rewrite ?upd_length; lia). rewrite upd_eq, Nat.sub_diag by lia. reflexivity.
          -- rewrite nth_paste_in by (rewrite ?upd_length; lia). now replace (j - i) with (S (j - S i)) by lia.
        * intros j Hj. rewrite nth_paste_out by (rewrite ?upd_length; lia). now rewrite upd_neq by lia.
      + intros j x Hx. rewrite <- (R (S j) x Hx). f_equal. lia.
      + rewrite upd_length. lia.
  Qed.

  Lemma vassign_correct_lemma N c xs f ys : holds N c xs -> reads f ys ->
    (length ys <= N -> exists c', vassign c f (length ys) = Ok (c', None) /\ holds N c' ys) /\
    (N < length ys -> vassign c f (length ys) = Ok (c, Some BstrModel.Length_error)).
  Proof.
    intros (O & F & G & HL & I) R. unfold vassign. rewrite F. destruct (Nat.leb_spec (length ys) N); split; intros L; try lia.
    - rewrite copy_in_ok by (assumption || lia). cbn [bind]. eexists. split; [reflexivity|].
      unfold holds. cbn [coff cbase csize]. rewrite paste_length by lia. repeat split; try assumption.
      unfold paste. cbn [firstn app Nat.add]. rewrite firstn_app, firstn_all, Nat.sub_diag. apply app_nil_r.
    - reflexivity.
  Qed.

  (** ** Element-wise operations *)
  Lemma vmap_correct_lemma ra d N c xs op : holds N c xs -> length xs < d ->
    vmap z ra d c op = Ok (varray z N (map op xs)).
  Proof.
    intros H L. unfold vmap. apply (remade_full N c xs); [assumption|apply map_length|].
    pose proof H as (O & F & G & HL & I).
    rewrite fx_transform_correct; [now rewrite (holds_slice N c xs)|eapply holds_wf; eassumption|eapply holds_valid; eassumption|lia].
  Qed.

  Lemma slice_prefix N c xs n : holds N c xs -> n <= length xs -> slice (cbase c) 0 (0 + n) = firstn n xs.
  Proof.
    intros H L. destruct (holds_split _ _ _ H) as (t & -> & _). unfold slice. cbn [Nat.add skipn]. rewrite Nat.sub_0_r.
    rewrite firstn_app. replace (n - length xs) with 0 by lia. cbn [firstn]. apply app_nil_r.
  Qed.

  Lemma vmap2_correct_lemma ra d N c e xs ys op : holds N c xs -> holds N e ys -> length xs <= length ys -> length xs < d ->
    vmap2 z ra d c e op = Ok (varray z N (map (fun p => op (fst p) (snd p)) (combine xs ys))).
  Proof.
    intros H K L D. unfold vmap2. apply (remade_full N c xs); [assumption|rewrite map_length, combine_length; lia|].
    pose proof H as (O & F & G & HL & I). pose proof K as (O' & F' & G' & HL' & I').
    rewrite fx_transform2_correct; [|eapply holds_wf; eassumption|eapply holds_valid; eassumption|lia|lia].
    rewrite (holds_slice N c xs) by assumption. rewrite G, Nat.sub_0_r. rewrite (slice_prefix N e ys) by assumption.
    do 3 f_equal. rewrite <- combine_firstn_l. reflexivity.
  Qed.

  Lemma vupdate_correct_lemma k N c xs op : holds N c xs -> length xs < k ->
    exists c', vupdate k c op = Ok c' /\ holds N c' (map op xs) /\ skipn (length xs) (cbase c') = skipn (length xs) (cbase c).
  Proof.
    clear z. intros H L. pose proof H as (O & F & G & HL & I). unfold vupdate.
    rewrite for_each_correct; [|eapply holds_valid; eassumption|lia].
    rewrite (holds_slice N c xs) by assumption. cbn [bind fst].
    assert (forall l, fst (map_state (fun (u : unit) x => (u, op x)) tt l) = map op l) as M.
    { induction l as [|x l IHl]; [reflexivity|]. cbn [map_state map]. destruct (map_state _ tt l) eqn:E.
      cbn [fst] in *. now rewrite IHl. }
    rewrite M. eexists. split; [reflexivity|].
    unfold holds. cbn [coff cbase csize]. rewrite map_length.
    rewrite paste_length by (rewrite map_length; lia). repeat split; try assumption.
    - unfold paste. cbn [firstn app Nat.add]. rewrite map_length, firstn_app, map_length, Nat.sub_diag. cbn [firstn].
      rewrite app_nil_r. rewrite firstn_all2 by (rewrite map_length; lia). reflexivity.
    - unfold paste. cbn [firstn app Nat.add]. rewrite map_length, skipn_app, map_length, Nat.sub_diag. cbn [skipn].
      rewrite skipn_all2 by (rewrite map_length; lia). reflexivity.
  Qed.

  (** ** Sums and extrema *)
  Lemma vsum_correct_lemma ra d N c xs plus : holds N c xs -> depth_bound (length xs) <= d ->
    vsum z ra d c plus = Ok (fold_left plus xs z).
  Proof.
    intros H L. unfold vsum. pose proof H as (O & F & G & HL & I).
    rewrite accumulate_correct; [now rewrite (holds_slice N c xs)|eapply holds_valid; eassumption|].
    now rewrite G, Nat.sub_0_r.
  Qed.
End Basics.

Section Extrema.
  Context {A : Type}.
  Variable less : A -> A -> bool.
  Hypothesis W : strict_weak_order less.
  Implicit Types (c : cont A) (xs : list A).

  Lemma rel_holds N c xs i j x y : holds N c xs -> nth_error xs i = Some x -> nth_error xs j = Some y ->
    rel less (cbase c) i (cbase c) j <-> less x y = true.
  Proof.
    intros H Hx Hy.
    assert (i < length xs) by (apply nth_error_Some; congruence).
    assert (j < length xs) by (apply nth_error_Some; congruence).
    unfold rel. rewrite !(holds_nth N c xs) by assumption. rewrite Hx, Hy. split.
    - intros (a & b & Ea & Eb & E). congruence.
    - intros E. eauto.
  Qed.

  Lemma vmin_correct_lemma ra d N c xs : holds N c xs -> xs <> [] -> depth_bound (length xs) <= d ->
    exists x, vmin less ra d c = Ok x /\ In x xs /\ forall y, In y xs -> less y x = false.
  Proof.
    intros H Ne L. pose proof H as (O & F & G & HL & I). unfold vmin.
    destruct (min_element_correct A less W ra d (cbase c) 0 (csize c)) as (r & E & _ & M);
      [eapply holds_valid; eassumption|now rewrite G, Nat.sub_0_r|].
    rewrite E. cbn [bind]. destruct xs as [|x0 t]; [congruence|].
    destruct (M ltac:(rewrite G; cbn; lia)) as (R & M1 & _). rewrite G in *.
    destruct (nth_error_ex (x0 :: t) r ltac:(lia)) as [x Hx]. exists x.
    rewrite (rd_ok (cbase c) r x) by (rewrite (holds_nth N c (x0 :: t)); [assumption|assumption|lia]).
    split; [reflexivity|]. split; [eapply nth_error_In; eassumption|].
    intros y Hy. apply In_nth_error in Hy. destruct Hy as [j Hj].
    assert (j < length (x0 :: t)) by (apply nth_error_Some; congruence).
    destruct (less y x) eqn:Q; [|reflexivity]. exfalso. apply (M1 j); [lia|].
    now apply (rel_holds N c (x0 :: t) j r y x).
  Qed.

  Lemma vmax_correct_lemma ra d N c xs : holds N c xs -> xs <> [] -> depth_bound (length xs) <= d ->
    exists x, vmax less ra d c = Ok x /\ In x xs /\ forall y, In y xs -> less x y = false.
  Proof.
    intros H Ne L. pose proof H as (O & F & G & HL & I). unfold vmax.
    destruct (max_element_correct A less W ra d (cbase c) 0 (csize c)) as (r & E & _ & M);
      [eapply holds_valid; eassumption|now rewrite G, Nat.sub_0_r|].
    rewrite E. cbn [bind]. destruct xs as [|x0 t]; [congruence|].
    destruct (M ltac:(rewrite G; cbn; lia)) as (R & M1 & _). rewrite G in *.
    destruct (nth_error_ex (x0 :: t) r ltac:(lia)) as [x Hx]. exists x.
    rewrite (rd_ok (cbase c) r x) by (rewrite (holds_nth N c (x0 :: t)); [assumption|assumption|lia]).
    split; [reflexivity|]. split; [eapply nth_error_In; eassumption|].
    intros y Hy. apply In_nth_error in Hy. destruct Hy as [j Hj].
    assert (j < length (x0 :: t)) by (apply nth_error_Some; congruence).
    destruct (less x y) eqn:Q; [|reflexivity]. exfalso. apply (M1 j); [lia|].
    now apply (rel_holds N c (x0 :: t) r j x y).
  Qed.
End Extrema.
