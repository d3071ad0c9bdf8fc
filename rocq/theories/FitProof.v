(** Proofs about the algorithms that return a window. *)
From Coq Require Import List Arith Bool Lia Permutation ZifyBool.
From Verif Require Import Base BaseProof SearchModel SearchSpec SearchProof OrderSpec OrderModel ListFacts MutSpec MutProof NumSpec.
From Verif Require Import SetSpec SetProof SetProof3 FixModel FixSpec FixProof FixProof2 FitModel FitSpec.
Import ListNotations.

Section Window.
  Context {A : Type}.
  Implicit Types (c : cont A) (xs : list A).

  Lemma paste_firstn_slice (m : list A) i xs k : i + length xs <= length m -> k <= length xs ->
    slice (paste m i xs) i (i + k) = firstn k xs.
  Proof.
    intros H Hk. pose proof (slice_paste m i xs H) as E. rewrite <- E at 2. unfold slice.
    rewrite firstn_firstn. f_equal. lia.
  Qed.

  Lemma with_front_base c out : wf c -> length (cbase (with_front c out)) = length (cbase c).
  Proof. intros Wc. unfold wf in Wc. cbn [with_front cbase]. apply paste_length. rewrite firstn_length. lia. Qed.

  Lemma window_front c stored shown k : wf c -> k <= csize c -> k <= length stored ->
    firstn k stored = firstn (csize c) shown ->
    exists r, sub_copy (with_front c stored) (coff c) (coff c + k) = Ok r /\ fitted c stored shown r.
  Proof.
    intros Wc H1 H2 E. unfold sub_copy. rewrite with_front_base by exact Wc. unfold wf in Wc.
    replace ((coff c <=? coff c + k) && (coff c + k <=? length (cbase c))) with true by lia.
    eexists. split; [reflexivity|]. unfold fitted, wf, elems. cbn [cbase coff csize].
    rewrite with_front_base by exact Wc. split; [lia|]. split; [reflexivity|]. split; [reflexivity|].
    rewrite <- E. cbn [with_front cbase].
    replace (coff c + (coff c + k - coff c)) with (coff c + k) by lia.
    rewrite paste_firstn_slice by (rewrite firstn_length; lia). rewrite firstn_firstn. f_equal. lia.
  Qed.

  (** The common case: the elements shown are those stored. *)
  Lemma window_fit c out k : wf c -> k = length out ->
    exists r, sub_copy (with_front c out) (coff c) (coff c + fit_size c k) = Ok r /\ fitted c out out r.
  Proof.
    intros Wc ->. unfold fit_size. apply window_front; [exact Wc|lia|lia|].
    destruct (Nat.le_ge_cases (length out) (csize c)).
    - rewrite Nat.min_l by lia. now rewrite !firstn_all2 by lia.
    - now rewrite Nat.min_r by lia.
  Qed.

  Lemma window_prefix c a b k : wf c -> k = length a ->
    exists r, sub_copy (with_front c (a ++ b)) (coff c) (coff c + fit_size c k) = Ok r /\ fitted c (a ++ b) a r.
  Proof.
    intros Wc ->. unfold fit_size. apply window_front; [exact Wc|lia|rewrite app_length; lia|].
    rewrite firstn_app. replace (Nat.min (length a) (csize c) - length a) with 0 by lia. cbn [firstn]. rewrite app_nil_r.
    destruct (Nat.le_ge_cases (length a) (csize c)).
    - rewrite Nat.min_l by lia. now rewrite !firstn_all2 by lia.
    - now rewrite Nat.min_r by lia.
  Qed.

  Lemma cnt_slice (p : A -> bool) xs : forall n first, first + n <= length xs ->
    cnt (tst p xs) first n = length (filter p (slice xs first (first + n))).
  Proof.
    induction n as [|n IH]; intros first H.
    - rewrite slice_nil by lia. reflexivity.
    - destruct (nth_error_ex xs first ltac:(lia)) as [x Hx]. rewrite cnt_S, (slice_cons xs first _ x) by (assumption || lia).
      rewrite IH by lia. unfold tst. rewrite Hx. cbn [filter]. replace (S first + n) with (first + S n) by lia.
      destruct (p x); reflexivity.
  Qed.

  Lemma count_if_filter ra d xs first last (p : A -> bool) : valid xs first last -> depth_bound (last - first) <= d ->
    count_if ra d xs first last p = Ok (length (filter p (slice xs first last))).
  Proof.
    intros V Hd. rewrite count_if_cnt by assumption. destruct V. rewrite cnt_slice by lia. do 4 f_equal. lia.
  Qed.

  Lemma filter_negb_length (p : A -> bool) xs : length (filter (fun x => negb (p x)) xs) = length xs - length (filter p xs).
  Proof.
    assert (H : length (filter p xs) + length (filter (fun x => negb (p x)) xs) = length xs); [|lia].
    induction xs as [|x xs IH]; [reflexivity|]. cbn [filter]. destruct (p x); cbn [negb length]; lia.
  Qed.

  Lemma fit_copy_correct_lemma ra d xs first last c : wf c -> valid xs first last -> last - first < d ->
    exists r, fit_copy ra d xs first last c = Ok r /\ fitted c (slice xs first last) (slice xs first last) r.
  Proof.
    intros Wc V Hd. unfold fit_copy. rewrite fx_copy_correct_lemma by assumption. cbn [bind].
    apply window_fit; [exact Wc|]. destruct V. now rewrite slice_length.
  Qed.

  Lemma fit_copy_n_correct_lemma ra d xs first n c : wf c -> valid xs first (first + n) -> n < d ->
    exists r, fit_copy_n ra d xs first n c = Ok r /\ fitted c (slice xs first (first + n)) (slice xs first (first + n)) r.
  Proof.
    intros Wc V Hd. unfold fit_copy_n. rewrite fx_copy_n_correct_lemma by (assumption || (destruct V; lia)). cbn [bind].
    apply window_fit; [exact Wc|]. destruct V. rewrite slice_length by lia. lia.
  Qed.

  Lemma fit_copy_if_correct_lemma ra d xs first last c p : wf c -> valid xs first last -> last - first < d ->
    depth_bound (last - first) <= d ->
    exists r, fit_copy_if ra d xs first last c p = Ok r /\
      fitted c (filter p (slice xs first last)) (filter p (slice xs first last)) r.
  Proof.
    intros Wc V Hd Hb. unfold fit_copy_if. rewrite fx_copy_if_correct_lemma by assumption. cbn [bind].
    rewrite count_if_filter by assumption. cbn [bind]. now apply window_fit.
  Qed.

  Lemma fit_copy_while_correct_lemma ra d xs first last c p : wf c -> valid xs first last -> last - first < d ->
    depth_bound (last - first) <= d ->
    exists r, fit_copy_while ra d xs first last c p = Ok r /\
      fitted c (prefix_while p (slice xs first last)) (prefix_while p (slice xs first last)) r.
  Proof.
    intros Wc V Hd Hb. unfold fit_copy_while. rewrite fx_copy_while_correct_lemma by assumption. cbn [bind].
    destruct (@find_if_not_correct_lemma A ra d xs first last p V Hb) as (e & -> & F). cbn [bind].
    apply window_fit; [exact Wc|]. rewrite (prefix_while_first p xs first last e V F).
    destruct F as (R & _), V. rewrite slice_length by lia. lia.
  Qed.

  Lemma fit_copy_until_correct_lemma ra d xs first last c p : wf c -> valid xs first last -> last - first < d ->
    depth_bound (last - first) <= d ->
    exists r, fit_copy_until ra d xs first last c p = Ok r /\
      fitted c (prefix_while (fun x => negb (p x)) (slice xs first last)) (prefix_while (fun x => negb (p x)) (slice xs first last)) r.
  Proof.
    intros Wc V Hd Hb. unfold fit_copy_until. rewrite fx_copy_until_correct_lemma by assumption. cbn [bind].
    destruct (@find_if_correct_lemma A ra d xs first last p V Hb) as (e & -> & F). cbn [bind].
    apply window_fit; [exact Wc|]. pose proof V as [V1 V2]. rewrite (prefix_while_first _ xs first last e V).
    - destruct F as (R & _). rewrite slice_length by lia. lia.
    - destruct F as (R & H1 & H2). split; [exact R|]. split.
      + intros j Hj Q. apply Q. destruct (nth_error_ex xs j ltac:(lia)) as [x Hx]. exists x. split; [exact Hx|].
        destruct (p x) eqn:E; [|reflexivity]. exfalso. apply (H1 j Hj). now exists x.
      + intros Hr (x & Hx & N). destruct (H2 Hr) as (y & Hy & P). rewrite Hx in Hy. injection Hy as <-. now rewrite P in N.
  Qed.

  Lemma fit_copy_backward_correct_lemma ra d xs first last c : wf c -> valid xs first last -> last - first < d ->
    exists r, fit_copy_backward ra d xs first last c = Ok r /\ fitted_back c (slice xs first last) r.
  Proof.
    intros Wc V Hd. unfold fit_copy_backward. rewrite fx_copy_backward_correct_lemma by assumption. cbn [bind].
    destruct V as [V1 V2]. assert (L : length (slice xs first last) = last - first) by now apply slice_length.
    assert (LB : length (cbase (with_back c (slice xs first last))) = length (cbase c)).
    { cbn [with_back cbase]. apply paste_length. rewrite skipn_length. unfold wf in Wc. lia. }
    unfold sub_copy, fit_size. rewrite LB. unfold wf in Wc.
    match goal with |- context [if ?b then _ else _] => replace b with true by lia end.
    eexists. split; [reflexivity|]. unfold fitted_back, wf, elems. cbn [cbase coff csize]. rewrite LB.
    split; [lia|]. split; [reflexivity|]. split; [lia|]. cbn [with_back cbase]. rewrite L.
    set (n := Nat.min (csize c) (last - first)). set (o := skipn (last - first - n) (slice xs first last)).
    assert (Lo : length o = n) by (unfold o; rewrite skipn_length, L; lia).
    replace (coff c + csize c - Nat.min (last - first) (csize c)) with (coff c + (csize c - n)) by lia.
    replace (coff c + (csize c - n) + (coff c + csize c - (coff c + (csize c - n)))) with (coff c + (csize c - n) + length o) by lia.
    rewrite slice_paste by lia. unfold o. f_equal. lia.
  Qed.

  Lemma fit_remove_copy_if_correct_lemma ra d xs first last c p : wf c -> valid xs first last -> last - first < d ->
    depth_bound (last - first) <= d ->
    exists r, fit_remove_copy_if ra d xs first last c p = Ok r /\
      fitted c (filter (fun x => negb (p x)) (slice xs first last)) (filter (fun x => negb (p x)) (slice xs first last)) r.
  Proof.
    intros Wc V Hd Hb. unfold fit_remove_copy_if. rewrite fx_remove_copy_if_correct_lemma by assumption. cbn [bind].
    rewrite count_if_filter by assumption. cbn [bind]. apply window_fit; [exact Wc|].
    rewrite filter_negb_length. destruct V. now rewrite slice_length.
  Qed.

  Lemma elems_valid c : wf c -> valid (cbase c) (coff c) (coff c + csize c).
  Proof. unfold wf, valid. lia. Qed.

  Lemma elems_length c : wf c -> length (elems c) = csize c.
  Proof. intros Wc. unfold elems. rewrite slice_length by exact Wc. lia. Qed.

  Lemma count_if_elems ra d c p : wf c -> depth_bound (csize c) <= d ->
    count_if ra d (cbase c) (coff c) (coff c + csize c) p = Ok (length (filter p (elems c))).
  Proof. intros Wc Hb. apply count_if_filter; [now apply elems_valid|]. now replace (coff c + csize c - coff c) with (csize c) by lia. Qed.

  Lemma filter_le (p : A -> bool) xs : length (filter p xs) <= length xs.
  Proof. induction xs as [|x xs IH]; [auto|]. cbn [filter]. destruct (p x); cbn [length]; lia. Qed.

  Lemma fit_remove_if_correct_lemma ra d c p : wf c -> csize c < d -> depth_bound (csize c) <= d ->
    exists r, fit_remove_if ra d c p = Ok r /\
      fitted c (filter (fun x => negb (p x)) (elems c)) (filter (fun x => negb (p x)) (elems c)) r /\
      elems r = filter (fun x => negb (p x)) (elems c).
  Proof.
    intros Wc Hd Hb. unfold fit_remove_if. rewrite fx_remove_if_correct_lemma by assumption. cbn [bind].
    rewrite count_if_elems by assumption. cbn [bind].
    pose proof (filter_le p (elems c)) as L. rewrite elems_length in L by exact Wc.
    assert (N : length (filter (fun x => negb (p x)) (elems c)) = csize c - length (filter p (elems c)))
      by now rewrite filter_negb_length, elems_length.
    destruct (window_fit c (filter (fun x => negb (p x)) (elems c)) _ Wc eq_refl) as (r & E & F). exists r.
    split; [|split; [exact F|]].
    - rewrite <- E. unfold fit_size. rewrite N. f_equal. lia.
    - destruct F as (_ & _ & _ & F). rewrite F. apply firstn_all2. lia.
  Qed.

  Lemma fit_stable_partition_copy_correct_lemma ra d xs first last c p : wf c -> valid xs first last -> last - first < d ->
    depth_bound (last - first) <= d ->
    exists r, fit_stable_partition_copy ra d xs first last c p = Ok r /\
      fitted c (filter p (slice xs first last) ++ filter (fun x => negb (p x)) (slice xs first last)) (filter p (slice xs first last)) r.
  Proof.
    intros Wc V Hd Hb. unfold fit_stable_partition_copy. rewrite fx_stable_partition_copy_correct_lemma by assumption. cbn [bind].
    rewrite count_if_filter by assumption. cbn [bind]. now apply window_prefix.
  Qed.

  (** What the window of the partitions holds: as many elements as do not satisfy [p]. *)
  Lemma part_window c ts fs p : wf c -> Permutation (elems c) (ts ++ fs) ->
    Forall (fun x => p x = true) ts -> Forall (fun x => p x = false) fs ->
    length (filter p (elems c)) = length ts /\
    exists r, sub_copy (with_front c (ts ++ fs)) (coff c) (coff c + csize c - length (filter p (elems c))) = Ok r /\
      wf r /\ cbase r = cbase (with_front c (ts ++ fs)) /\ coff r = coff c /\ elems r = firstn (length fs) (ts ++ fs).
  Proof.
    intros Wc P T F.
    assert (N : length (filter p (elems c)) = length ts).
    { assert (G : forall l l' : list A, Permutation l l' -> length (filter p l) = length (filter p l')).
      { induction 1 as [|x l l' _ IH|x y l|l l' l'' _ IH1 _ IH2]; cbn [filter]; [reflexivity| | |lia].
        - destruct (p x); cbn [length]; lia.
        - destruct (p x), (p y); reflexivity. }
      rewrite (G _ _ P), filter_app, app_length.
      assert (filter p ts = ts) as ->.
      { clear P G. induction T as [|x l H _ IH]; [reflexivity|]. cbn [filter]. rewrite H. now f_equal. }
      assert (filter p fs = []) as ->.
      { clear P G. induction F as [|x l H _ IH]; [reflexivity|]. cbn [filter]. now rewrite H. }
      cbn [length]. lia. }
    split; [exact N|]. rewrite N. apply Permutation_length in P. rewrite elems_length, app_length in P by exact Wc.
    destruct (window_front c (ts ++ fs) (firstn (length fs) (ts ++ fs)) (length fs) Wc) as (r & E & (H1 & H2 & H3 & H4));
      [lia|rewrite app_length; lia|rewrite firstn_firstn; f_equal; lia|].
    exists r. split; [rewrite <- E; f_equal; lia|]. repeat split; [exact H1|exact H2|exact H3|].
    rewrite H4, firstn_firstn. f_equal. lia.
  Qed.

  Lemma fit_partition_partial_lemma ra d c p : wf c -> csize c < d -> depth_bound (csize c) <= d ->
    exists r ts fs, fit_partition ra d c p = Ok r /\ Permutation (elems c) (ts ++ fs) /\
      Forall (fun x => p x = true) ts /\ Forall (fun x => p x = false) fs /\
      wf r /\ cbase r = cbase (with_front c (ts ++ fs)) /\ coff r = coff c /\
      elems r = firstn (length fs) (ts ++ fs) /\
      (length ts = length fs -> elems r = ts).
  Proof.
    intros Wc Hd Hb. unfold fit_partition. destruct (fx_partition_correct_lemma d c p Wc Hd) as (ts & fs & P & T & F & ->). cbn [bind].
    rewrite count_if_elems by assumption. cbn [bind].
    destruct (part_window c ts fs p Wc P T F) as (N & r & E & H1 & H2 & H3 & H4).
    exists r, ts, fs. repeat split; [exact E|exact P|exact T|exact F|exact H1|exact H2|exact H3|exact H4|].
    intros L. rewrite H4, <- L, firstn_app, firstn_all, Nat.sub_diag. apply app_nil_r.
  Qed.

  Lemma fit_stable_partition_partial_lemma ra d c p : wf c -> csize c < d -> depth_bound (csize c) <= d ->
    let ts := filter p (elems c) in
    let fs := filter (fun x => negb (p x)) (elems c) in
    exists r, fit_stable_partition ra d c p = Ok r /\
      wf r /\ cbase r = cbase (with_front c (ts ++ fs)) /\ coff r = coff c /\
      elems r = firstn (length fs) (ts ++ fs) /\
      (length ts = length fs -> elems r = ts).
  Proof.
    intros Wc Hd Hb ts fs. unfold fit_stable_partition. rewrite fx_stable_partition_correct_lemma by assumption. cbn [bind].
    rewrite count_if_elems by assumption. cbn [bind].
    assert (P : Permutation (elems c) (ts ++ fs)).
    { unfold ts, fs. induction (elems c) as [|x l IH]; [constructor|]. cbn [filter]. destruct (p x); cbn [negb app].
      - now constructor.
      - now apply Permutation_cons_app. }
    destruct (part_window c ts fs p Wc P) as (N & r & E & H1 & H2 & H3 & H4).
    { apply Forall_forall. intros x Hx. now apply filter_In in Hx. }
    { apply Forall_forall. intros x Hx. apply filter_In in Hx. destruct (p x); [now destruct Hx|reflexivity]. }
    exists r. repeat split; [exact E|exact H1|exact H2|exact H3|exact H4|].
    intros L. rewrite H4, <- L, firstn_app, firstn_all, Nat.sub_diag. apply app_nil_r.
  Qed.
  (** *** partition_copy *)
  Lemma count_n_if_impl_ok (p : A -> bool) xs : forall d pos k n, 1 <= n -> n <= d -> pos + n <= length xs ->
    count_n_if_impl d xs p (pos, k) n = Ok (pos + n, k + length (filter p (slice xs pos (pos + n)))).
  Proof.
    induction d as [|d IH]; intros pos k n H1 H2 H3; [lia|]. cbn [count_n_if_impl]. destruct (n =? 1) eqn:E.
    - apply Nat.eqb_eq in E. subst n. cbn [fst snd]. destruct (nth_error_ex xs pos ltac:(lia)) as [x Hx].
      rewrite (rd_ok _ _ _ Hx). cbn [bind]. rewrite (slice_cons xs pos _ x) by (assumption || lia).
      rewrite slice_nil by lia. cbn [filter]. replace (S pos) with (pos + 1) by lia. destruct (p x); reflexivity.
    - apply Nat.eqb_neq in E. assert (D1 : n / 2 < n) by (apply Nat.div_lt; lia).
      assert (D2 : 1 <= n / 2) by (apply (Nat.div_le_lower_bound n 2 1); lia).
      rewrite IH by lia. cbn [bind]. rewrite IH by lia. f_equal. f_equal; [lia|].
      replace (pos + n / 2 + (n - n / 2)) with (pos + n) by lia.
      rewrite <- !cnt_slice by lia. replace (pos + n) with (pos + n / 2 + (n - n / 2)) by lia. rewrite <- cnt_slice by lia.
      rewrite <- Nat.add_assoc. f_equal. rewrite <- cnt_add. f_equal. lia.
  Qed.

  Lemma count_n_if_ok (p : A -> bool) d xs first n : n <= d -> first + n <= length xs ->
    count_n_if d xs first n p = Ok (length (filter p (slice xs first (first + n)))).
  Proof.
    intros H1 H2. unfold count_n_if. destruct (n =? 0) eqn:E.
    - apply Nat.eqb_eq in E. rewrite slice_nil by lia. reflexivity.
    - apply Nat.eqb_neq in E. rewrite count_n_if_impl_ok by lia. reflexivity.
  Qed.

  Lemma part_count (p : A -> bool) l ts fs : Permutation l (ts ++ fs) ->
    Forall (fun x => p x = true) ts -> Forall (fun x => p x = false) fs -> length (filter p l) = length ts.
  Proof.
    intros P T F. assert (G : forall l l' : list A, Permutation l l' -> length (filter p l) = length (filter p l')).
    { induction 1 as [|x m m' _ IH|x y m|m m' m'' _ IH1 _ IH2]; cbn [filter]; [reflexivity| | |lia].
      - destruct (p x); cbn [length]; lia.
      - destruct (p x), (p y); reflexivity. }
    rewrite (G _ _ P), filter_app, app_length.
    assert (filter p ts = ts) as ->.
    { clear P G. induction T as [|x m H _ IH]; [reflexivity|]. cbn [filter]. rewrite H. now f_equal. }
    assert (filter p fs = []) as ->.
    { clear P G. induction F as [|x m H _ IH]; [reflexivity|]. cbn [filter]. now rewrite H. }
    cbn [length]. lia.
  Qed.

  Lemma fit_partition_copy_correct_lemma d xs first last c p : wf c -> valid xs first last -> last - first < d ->
    exists r ts fs, fit_partition_copy d xs first last c p = Ok r /\
      Permutation (firstn (csize c) (slice xs first last)) (ts ++ fs) /\
      Forall (fun x => p x = true) ts /\ Forall (fun x => p x = false) fs /\
      fitted c (ts ++ fs) ts r /\ elems r = ts.
  Proof.
    intros Wc V Hd. unfold fit_partition_copy.
    destruct (fx_partition_copy_correct_lemma d xs first last c p Wc V Hd) as (ts & fs & P & T & F & ->). cbn [bind].
    destruct V as [V1 V2]. rewrite count_n_if_ok by lia. cbn [bind].
    assert (E : slice xs first (first + Nat.min (last - first) (csize c)) = firstn (csize c) (slice xs first last)).
    { unfold slice. rewrite firstn_firstn. f_equal. lia. }
    rewrite E, (part_count p _ ts fs P T F).
    pose proof (Permutation_length P) as L. rewrite firstn_length, app_length in L.
    destruct (window_prefix c ts fs _ Wc eq_refl) as (r & Er & Fr). exists r, ts, fs.
    split; [exact Er|]. split; [exact P|]. split; [exact T|]. split; [exact F|]. split; [exact Fr|].
    destruct Fr as (_ & _ & _ & Fr). rewrite Fr. apply firstn_all2. lia.
  Qed.

  (** *** unique *)
  (** The number of neighbours that are related. *)
  Fixpoint adj (pred : A -> A -> bool) (u : A) (l : list A) : nat :=
    match l with
    | [] => 0
    | x :: t => (if pred u x then 1 else 0) + adj pred x t
    end.

  Lemma keep_from_length pred : groups pred -> forall l u v, u = v \/ pred v u = true ->
    length (keep_from pred v l) + adj pred u l = length l.
  Proof.
    intros [Sy Tr]. induction l as [|x t IH]; intros u v H; [reflexivity|]. cbn [keep_from adj].
    assert (E : pred u x = pred v x).
    { destruct H as [->|H]; [reflexivity|]. destruct (pred u x) eqn:E1, (pred v x) eqn:E2; try reflexivity.
      - rewrite (Tr _ _ _ H E1) in E2. discriminate.
      - rewrite (Tr _ _ _ (Sy _ _ H) E2) in E1. discriminate. }
    rewrite E. destruct (pred v x) eqn:E2.
    - specialize (IH x v (or_intror E2)). cbn [length]. lia.
    - specialize (IH x x (or_introl eq_refl)). cbn [length]. lia.
  Qed.

  Lemma adj_app pred l1 l2 x : forall u, adj pred u (l1 ++ x :: l2) = adj pred u (l1 ++ [x]) + adj pred x l2.
  Proof. induction l1 as [|y t IH]; intros u; cbn [app adj]; [lia|]. rewrite IH. lia. Qed.

  Lemma overlap_ra_ok pred xs : forall d first dist u, 1 <= dist -> dist <= d -> first + dist < length xs ->
    nth_error xs first = Some u ->
    overlap_count_impl_ra pred d xs first (first + dist) (dist / 2) = Ok (adj pred u (slice xs (S first) (S (first + dist)))).
  Proof.
    induction d as [|d IH]; intros first dist u H1 H2 H3 Hu; [lia|]. cbn [overlap_count_impl_ra].
    destruct (dist / 2 =? 0) eqn:E.
    - apply Nat.eqb_eq in E. assert (dist = 1) as ->.
      { apply Nat.div_small_iff in E; lia. }
      destruct (nth_error_ex xs (first + 1) ltac:(lia)) as [y Hy]. rewrite (rd_ok _ _ _ Hu), (rd_ok _ _ _ Hy). cbn [bind].
      rewrite (slice_cons xs (S first) _ y) by (lia || (replace (S first) with (first + 1) by lia; exact Hy)).
      rewrite slice_nil by lia. cbn [adj]. now destruct (pred u y).
    - apply Nat.eqb_neq in E. assert (D1 : dist / 2 < dist) by (apply Nat.div_lt; lia).
      set (h := dist / 2) in *. destruct (nth_error_ex xs (first + h) ltac:(lia)) as [w Hw].
      rewrite (IH first h u) by (assumption || lia). cbn [bind].
      replace (first + dist - first - h) with (dist - h) by lia.
      pose proof (IH (first + h) (dist - h) w ltac:(lia) ltac:(lia) ltac:(lia) Hw) as I2.
      replace (first + h + (dist - h)) with (first + dist) in I2 by lia. rewrite I2. cbn [bind]. f_equal.
      rewrite (slice_app xs (S first) (S (first + h)) (S (first + dist))) by lia.
      assert (Q : slice xs (S first) (S (first + h)) = slice xs (S first) (first + h) ++ [w]).
      { rewrite (slice_app xs (S first) (first + h) (S (first + h))) by lia. f_equal.
        rewrite (slice_cons xs (first + h) _ w) by (assumption || lia). now rewrite slice_nil by lia. }
      rewrite Q, <- app_assoc. cbn [app]. symmetry. apply adj_app.
  Qed.

  Lemma overlap_count_ok pred ra d xs first last u : groups pred -> valid xs first last -> first < last ->
    last - first < d -> depth_bound (last - first) <= d -> nth_error xs first = Some u ->
    overlap_count pred ra d xs first last = Ok (adj pred u (slice xs (S first) last)).
  Proof.
    intros [Sy Tr] [V1 V2] H Hd Hb Hu. unfold overlap_count. destruct ra.
    - destruct ((first =? last) || (last - first =? 1)) eqn:E.
      + rewrite slice_nil by lia. reflexivity.
      + rewrite (overlap_ra_ok pred xs d first (last - first - 1) u) by (assumption || lia). do 3 f_equal. lia.
    - replace (first =? last) with false by lia. rewrite (rd_ok _ _ _ Hu). cbn [bind].
      match goal with |- context [dbl (stop ?b) ?f _ _ _] =>
        destruct (dbl_inv xs xs last last V2 V2 b f (fun '(i, v, n) => i <= last /\
            n + adj pred v (slice xs i last) = adj pred u (slice xs (S first) last))
          (fun '(i, v, n) => last - i) (last - first) d (S first, u, 0))
          as (((i, v), n) & -> & I & E)
      end.
      + intros ((i, v), n) (B & I) E. destruct (nth_error_ex xs i ltac:(lia)) as [x Hx].
        rewrite (rd_ok _ _ _ Hx). cbn [bind]. eexists. split; [reflexivity|].
        rewrite (slice_cons xs i last x) in I by (assumption || lia). cbn [adj] in I.
        assert (Q : pred x v = pred v x).
        { destruct (pred x v) eqn:E1, (pred v x) eqn:E2; try reflexivity.
          - rewrite (Sy _ _ E1) in E2. discriminate.
          - rewrite (Sy _ _ E2) in E1. discriminate. }
        rewrite Q. lia.
      + lia.
      + lia.
      + exact Hb.
      + cbn [bind]. f_equal. destruct I as (B & I). apply Nat.eqb_eq in E. subst i. rewrite slice_nil in I by lia. cbn [adj] in I. lia.
  Qed.

  Lemma unique_count pred ra d xs first last : groups pred -> valid xs first last ->
    last - first < d -> depth_bound (last - first) <= d ->
    exists n, overlap_count pred ra d xs first last = Ok n /\
      length (keep_distinct pred (slice xs first last)) = last - first - n /\ n <= last - first.
  Proof.
    intros G V Hd Hb. pose proof V as [V1 V2]. destruct (Nat.eq_dec first last) as [E|E].
    - exists 0. unfold overlap_count. replace (first =? last) with true by lia. cbn [orb]. rewrite slice_nil by lia.
      cbn [keep_distinct length]. split; [now destruct ra|lia].
    - destruct (nth_error_ex xs first ltac:(lia)) as [u Hu]. exists (adj pred u (slice xs (S first) last)).
      split; [apply overlap_count_ok; assumption || lia|]. rewrite (slice_cons xs first last u) by (assumption || lia).
      cbn [keep_distinct length]. pose proof (keep_from_length pred G (slice xs (S first) last) u u (or_introl eq_refl)) as K.
      rewrite slice_length in K by lia. lia.
  Qed.

  Lemma fit_unique_copy_partial_lemma pred ra d xs first last c : groups pred -> wf c -> valid xs first last ->
    last - first < d -> depth_bound (last - first) <= d -> 0 < csize c \/ first = last ->
    exists r, fit_unique_copy pred ra d xs first last c = Ok r /\
      fitted c (keep_distinct pred (slice xs first last)) (keep_distinct pred (slice xs first last)) r.
  Proof.
    intros G Wc V Hd Hb Hc. unfold fit_unique_copy. rewrite fx_unique_copy_partial_lemma by assumption. cbn [bind].
    destruct (unique_count pred ra d xs first last G V Hd Hb) as (n & -> & L & _). cbn [bind]. now apply window_fit.
  Qed.

  Lemma fit_unique_correct_lemma pred ra d c : groups pred -> wf c -> csize c < d -> depth_bound (csize c) <= d ->
    exists r, fit_unique pred ra d c = Ok r /\
      fitted c (keep_distinct pred (elems c)) (keep_distinct pred (elems c)) r /\
      elems r = keep_distinct pred (elems c).
  Proof.
    intros G Wc Hd Hb. unfold fit_unique. rewrite fx_unique_correct_lemma by assumption. cbn [bind].
    destruct (unique_count pred ra d (cbase c) (coff c) (coff c + csize c) G (elems_valid c Wc)) as (n & -> & L & N).
    { lia. }
    { now replace (coff c + csize c - coff c) with (csize c) by lia. }
    cbn [bind]. change (slice (cbase c) (coff c) (coff c + csize c)) with (elems c) in L.
    destruct (window_fit c (keep_distinct pred (elems c)) _ Wc eq_refl) as (r & E & F). exists r.
    split; [|split; [exact F|]].
    - rewrite <- E. unfold fit_size. rewrite L. f_equal. lia.
    - destruct F as (_ & _ & _ & F). rewrite F. apply firstn_all2. lia.
  Qed.
  (** *** fill_n *)
  Lemma fx_fill_n_wide c n (x : A) : wf c ->
    fx_fill_n c n x = Ok (Cont (paste (cbase c) (coff c) (repeat x (Nat.min n (length (cbase c) - coff c)))) (coff c) (csize c)).
  Proof.
    intros Wc. unfold fx_fill_n, fx_fill_impl. set (f := fun i => _). set (k := Nat.min n (length (cbase c) - coff c)).
    unfold wf in Wc. assert (H : remake_indexes (Cont (cbase c) (coff c) k) f = Ok (with_front (Cont (cbase c) (coff c) k) (repeat x k))).
    { apply remake_front; unfold wf, f; cbn [cbase coff csize]; [lia| |]; intros i; rewrite repeat_length.
      - intros H1 H2 H3. replace ((coff c <=? i) && (i <? coff c + n)) with true by lia.
        symmetry. apply rd_ok. apply nth_repeat_some. lia.
      - intros H1 H2. now replace ((coff c <=? i) && (i <? coff c + n)) with false by lia. }
    unfold remake_indexes, remake, static_size, with_front in *. cbn [cbase coff csize] in *.
    destruct (expand f 0 (length (cbase c))) as [l| |]; cbn [bind] in *; try discriminate.
    destruct (length l =? length (cbase c)); [|discriminate]. injection H as ->.
    now rewrite firstn_all2 by (rewrite repeat_length; lia).
  Qed.

  Lemma fit_fill_n_partial_lemma c n (x : A) : wf c ->
    exists r, fit_fill_n c n x = Ok r /\ wf r /\ coff r = coff c /\ elems r = repeat x (Nat.min n (csize c)) /\
      length (cbase r) = length (cbase c) /\
      forall i, ~ (coff c <= i < coff c + n) -> nth_error (cbase r) i = nth_error (cbase c) i.
  Proof.
    intros Wc. unfold fit_fill_n. rewrite fx_fill_n_wide by exact Wc. cbn [bind]. unfold wf in Wc.
    set (k := Nat.min n (length (cbase c) - coff c)).
    assert (L : length (paste (cbase c) (coff c) (repeat x k)) = length (cbase c)) by (apply paste_length; rewrite repeat_length; lia).
    unfold sub_copy. cbn [cbase]. rewrite L. match goal with |- context [if ?b then _ else _] => replace b with true by lia end.
    eexists. split; [reflexivity|]. unfold wf, elems. cbn [cbase coff csize]. rewrite L. split; [lia|]. split; [reflexivity|]. split; [|split; [reflexivity|]].
    - rewrite paste_firstn_slice by (rewrite repeat_length; lia). rewrite firstn_repeat by lia. f_equal. lia.
    - intros i Hi. apply nth_paste_out; rewrite repeat_length; lia.
  Qed.
End Window.

Section Sets.
  Context {A : Type}.
  Variable comp : A -> A -> bool.
  Hypothesis W : strict_weak_order comp.
  Implicit Types (xs ys : list A) (c : cont A).

  (** The number of pairs met by the merge: the length of the intersection. *)
  Notation ovl xs ys := (length (setop comp false false true xs ys)).

  Lemma ovl_cons x xt y yt : ovl (x :: xt) (y :: yt) =
    if comp x y then ovl xt (y :: yt) else if comp y x then ovl (x :: xt) yt else S (ovl xt yt).
  Proof. rewrite setop_cons. destruct (comp x y); [reflexivity|]. now destruct (comp y x). Qed.

  Lemma union_length : forall xs ys, length (setop comp true true true xs ys) + ovl xs ys = length xs + length ys.
  Proof.
    apply (merge_ind (fun xs ys => length (setop comp true true true xs ys) + ovl xs ys = length xs + length ys)).
    - intros ys. rewrite !setop_nil_l. cbn [length]. lia.
    - intros xs. rewrite !setop_nil_r. cbn [length]. lia.
    - intros x xt y yt I1 I2 I3. rewrite ovl_cons, ?setop_cons. cbn [length] in *.
      destruct (comp x y); [clear I2 I3|destruct (comp y x); [clear I1 I3|clear I1 I2]]; cbn [app length]; lia.
  Qed.

  Lemma difference_length : forall xs ys, length (setop comp true false false xs ys) + ovl xs ys = length xs.
  Proof.
    apply (merge_ind (fun xs ys => length (setop comp true false false xs ys) + ovl xs ys = length xs)).
    - intros ys. rewrite !setop_nil_l. cbn [length]. lia.
    - intros xs. rewrite !setop_nil_r. cbn [length]. lia.
    - intros x xt y yt I1 I2 I3. rewrite ovl_cons, ?setop_cons. cbn [length] in *.
      destruct (comp x y); [clear I2 I3|destruct (comp y x); [clear I1 I3|clear I1 I2]]; cbn [app length]; lia.
  Qed.

  Lemma symmetric_length : forall xs ys, length (setop comp true true false xs ys) + 2 * ovl xs ys = length xs + length ys.
  Proof.
    apply (merge_ind (fun xs ys => length (setop comp true true false xs ys) + 2 * ovl xs ys = length xs + length ys)).
    - intros ys. rewrite !setop_nil_l. cbn [length]. lia.
    - intros xs. rewrite !setop_nil_r. cbn [length]. lia.
    - intros x xt y yt I1 I2 I3. rewrite ovl_cons, ?setop_cons. cbn [length] in *.
      destruct (comp x y); [clear I2 I3|destruct (comp y x); [clear I1 I3|clear I1 I2]]; cbn [app length]; lia.
  Qed.

  Lemma setop_lengths xs ys :
    length (setop comp true true true xs ys) = length xs + length ys - ovl xs ys /\
    length (setop comp true false false xs ys) = length xs - ovl xs ys /\
    length (setop comp true true false xs ys) = length xs + length ys - 2 * ovl xs ys.
  Proof.
    repeat split; [pose proof (union_length xs ys)|pose proof (difference_length xs ys)|pose proof (symmetric_length xs ys)]; lia.
  Qed.

  Section Ranges.
    Variables (xs ys : list A) (first1 last1 first2 last2 d : nat) (c : cont A).
    Hypotheses (Wc : wf c) (V1 : valid xs first1 last1) (V2 : valid ys first2 last2)
      (S1 : sorted_range comp xs first1 last1) (S2 : sorted_range comp ys first2 last2)
      (Hd : (last1 - first1) + (last2 - first2) < d) (Hb : depth_bound ((last1 - first1) + (last2 - first2)) <= d).

    Let SX : ssorted comp (slice xs first1 last1).
    Proof. now apply (sorted_range_slice comp W). Qed.
    Let SY : ssorted comp (slice ys first2 last2).
    Proof. now apply (sorted_range_slice comp W). Qed.

    Lemma set_overlap_count_ok : set_overlap_count comp d xs first1 last1 ys first2 last2 =
      Ok (ovl (slice xs first1 last1) (slice ys first2 last2)).
    Proof.
      destruct V1 as [V11 V12], V2 as [V21 V22]. unfold set_overlap_count.
      match goal with |- context [dbl (stop ?b) ?f _ _ _] =>
        destruct (dbl_inv xs ys last1 last2 V12 V22 b f (fun '(i, j, n) => i <= last1 /\ j <= last2 /\
            n + ovl (slice xs i last1) (slice ys j last2) = ovl (slice xs first1 last1) (slice ys first2 last2))
          (fun '(i, j, n) => (last1 - i) + (last2 - j)) ((last1 - first1) + (last2 - first2)) d (first1, first2, 0))
          as (((i, j), n) & -> & I & E)
      end.
      - intros ((i, j), n) (B1 & B2 & I) E.
        destruct (nth_error_ex xs i ltac:(lia)) as [x Hx], (nth_error_ex ys j ltac:(lia)) as [y Hy].
        rewrite (rd_ok _ _ _ Hx), (rd_ok _ _ _ Hy). cbn [bind].
        rewrite (slice_cons xs i last1 x), (slice_cons ys j last2 y), ovl_cons in I by (assumption || lia).
        eexists. split; [reflexivity|].
        destruct (comp x y) eqn:C1; [|destruct (comp y x) eqn:C2].
        + rewrite (slice_cons ys j last2 y) by (assumption || lia). lia.
        + rewrite (slice_cons xs i last1 x) by (assumption || lia). lia.
        + lia.
      - lia.
      - lia.
      - exact Hb.
      - cbn [bind]. f_equal. destruct I as (B1 & B2 & I).
        assert (Z : ovl (slice xs i last1) (slice ys j last2) = 0); [|lia].
        apply orb_true_iff in E. destruct E as [E|E]; apply Nat.eqb_eq in E; subst.
        + rewrite (slice_nil xs) by lia. now rewrite setop_nil_l.
        + rewrite (slice_nil ys) by lia. now rewrite setop_nil_r.
    Qed.

    Let L1 : length (slice xs first1 last1) = last1 - first1.
    Proof. destruct V1. now apply slice_length. Qed.
    Let L2 : length (slice ys first2 last2) = last2 - first2.
    Proof. destruct V2. now apply slice_length. Qed.

    Lemma fit_merge_correct_s : exists out r, merge_of comp (slice xs first1 last1) (slice ys first2 last2) out /\
      fit_merge comp d xs first1 last1 ys first2 last2 c = Ok r /\ fitted c out out r.
    Proof.
      unfold fit_merge. rewrite (fx_merge_mrg comp) by assumption. cbn [bind].
      destruct (window_fit c (mrg comp (slice xs first1 last1) (slice ys first2 last2)) ((last1 - first1) + (last2 - first2)) Wc) as (r & E & F).
      { now rewrite mrg_length, L1, L2. }
      do 2 eexists. split; [apply (merge_of_mrg comp W); assumption|]. split; [exact E|exact F].
    Qed.

    Lemma fit_set_union_correct_s : exists out r, union_of comp (slice xs first1 last1) (slice ys first2 last2) out /\
      fit_set_union comp d xs first1 last1 ys first2 last2 c = Ok r /\ fitted c out out r.
    Proof.
      unfold fit_set_union. rewrite (fx_set_union_setop comp), set_overlap_count_ok by assumption. cbn [bind].
      destruct (setop_lengths (slice xs first1 last1) (slice ys first2 last2)) as (H & _). rewrite L1, L2 in H.
      destruct (window_fit c _ _ Wc (eq_sym H)) as (r & E & F).
      do 2 eexists. split; [apply (union_of_setop comp W); assumption|]. split; [exact E|exact F].
    Qed.

    Lemma fit_set_intersection_correct_s : exists out r, intersection_of comp (slice xs first1 last1) (slice ys first2 last2) out /\
      fit_set_intersection comp d xs first1 last1 ys first2 last2 c = Ok r /\ fitted c out out r.
    Proof.
      unfold fit_set_intersection. rewrite (fx_set_intersection_setop comp), set_overlap_count_ok by assumption. cbn [bind].
      destruct (window_fit c (setop comp false false true (slice xs first1 last1) (slice ys first2 last2)) _ Wc eq_refl) as (r & E & F).
      do 2 eexists. split; [apply (intersection_of_setop comp W); assumption|]. split; [exact E|exact F].
    Qed.

    Lemma fit_set_difference_correct_s : exists out r, difference_of comp (slice xs first1 last1) (slice ys first2 last2) out /\
      fit_set_difference comp d xs first1 last1 ys first2 last2 c = Ok r /\ fitted c out out r.
    Proof.
      unfold fit_set_difference. rewrite (fx_set_difference_setop comp), set_overlap_count_ok by assumption. cbn [bind].
      destruct (setop_lengths (slice xs first1 last1) (slice ys first2 last2)) as (_ & H & _). rewrite L1 in H.
      destruct (window_fit c _ _ Wc (eq_sym H)) as (r & E & F).
      do 2 eexists. split; [apply (difference_of_setop comp W); assumption|]. split; [exact E|exact F].
    Qed.

    Lemma fit_set_symmetric_difference_correct_s : exists out r,
      symmetric_difference_of comp (slice xs first1 last1) (slice ys first2 last2) out /\
      fit_set_symmetric_difference comp d xs first1 last1 ys first2 last2 c = Ok r /\ fitted c out out r.
    Proof.
      unfold fit_set_symmetric_difference. rewrite (fx_set_symmetric_difference_setop comp), set_overlap_count_ok by assumption. cbn [bind].
      destruct (setop_lengths (slice xs first1 last1) (slice ys first2 last2)) as (_ & _ & H). rewrite L1, L2 in H.
      destruct (window_fit c _ _ Wc (eq_sym H)) as (r & E & F).
      do 2 eexists. split; [apply (symmetric_difference_of_setop comp W); assumption|]. split; [exact E|exact F].
    Qed.
  End Ranges.
End Sets.

(** Three elements satisfy the predicate and one does not: the window holds one. One does and two do
    not: the window holds two. *)
Lemma fit_partition_refuted_lemma :
  (exists c r x, wf c /\ fit_partition true 20 c Nat.even = Ok r /\ In x (elems c) /\ Nat.even x = true /\ ~ In x (elems r)) /\
  (exists c r x, wf c /\ fit_partition true 20 c Nat.even = Ok r /\ In x (elems r) /\ Nat.even x = false).
Proof.
  split.
  - exists (Cont [2;4;5;6] 0 4), (Cont [6;4;2;5] 0 1), 4. split; [apply le_n|]. split; [reflexivity|]. split; [right; left; reflexivity|]. split; [reflexivity|]. intros [H|[]]. discriminate H.
  - exists (Cont [2;5;7] 0 3), (Cont [2;5;7] 0 2), 5. split; [apply le_n|]. split; [reflexivity|]. split; [right; left; reflexivity|]. reflexivity.
Qed.

Lemma fit_stable_partition_refuted_lemma :
  (exists c r x, wf c /\ fit_stable_partition true 20 c Nat.even = Ok r /\ In x (elems c) /\ Nat.even x = true /\ ~ In x (elems r)) /\
  (exists c r x, wf c /\ fit_stable_partition true 20 c Nat.even = Ok r /\ In x (elems r) /\ Nat.even x = false).
Proof.
  split.
  - exists (Cont [2;4;5;6] 0 4), (Cont [2;4;6;5] 0 1), 4. split; [apply le_n|]. split; [reflexivity|]. split; [right; left; reflexivity|]. split; [reflexivity|]. intros [H|[]]. discriminate H.
  - exists (Cont [2;5;7] 0 3), (Cont [2;5;7] 0 2), 5. split; [apply le_n|]. split; [reflexivity|]. split; [right; left; reflexivity|]. reflexivity.
Qed.

(** The element behind the container is filled too. *)
Lemma fit_fill_n_refuted_lemma : exists (c r : cont nat) n x i,
  wf c /\ fit_fill_n c n x = Ok r /\ coff c + csize c <= i /\ nth_error (cbase r) i <> nth_error (cbase c) i.
Proof.
  exists (Cont [9;1;2;9;9] 1 2), (Cont [9;7;7;7;9] 1 2), 3, 7, 3. unfold wf. cbn [coff csize cbase length].
  split; [lia|]. split; [reflexivity|]. split; [lia|]. discriminate.
Qed.
