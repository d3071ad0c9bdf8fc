(** Proofs about the views of valarrays. *)
From Coq Require Import List Arith ZArith Bool Lia Permutation.
From Coq Require Import ZifyBool ZifyNat.
From Verif Require Import Base BaseProof SearchSpec SearchProof SearchProps SearchModel OrderSpec OrderProof ListFacts MutSpec MutModel MutProof
  FixModel FixSpec FixProof FixProps ValModel ValSpec ValProof ValProof2.
Import ListNotations.
Open Scope nat_scope.

Lemma nodup_app_l {A} : forall l l' : list A, NoDup (l ++ l') -> NoDup l.
Proof.
  induction l as [|x l IH]; intros l' H; [constructor|]. inversion H as [|? ? N D]; subst.
  constructor; [|eapply IH; eassumption]. intros I. apply N, in_or_app. now left.
Qed.

Lemma slice_view_correct_lemma start size stride :
  picks (slice_view start size stride) (map (fun i => start + stride * i) (seq 0 size)).
Proof.
  split; [cbn [slice_view vlen]; now rewrite map_length, seq_length|].
  intros i p H. assert (i < size) as L.
  { assert (i < length (map (fun i => start + stride * i) (seq 0 size))) as K by (apply nth_error_Some; congruence).
    now rewrite map_length, seq_length in K. }
  rewrite map_seq_nth in H by assumption. cbn [slice_view vidx]. congruence.
Qed.

Lemma indirect_view_correct_lemma M indexes ps : holds M indexes ps -> picks (indirect_view indexes) ps.
Proof.
  intros H. split; [exact (proj1 (proj2 (proj2 H)))|]. intros i p E. cbn [indirect_view vidx].
  now apply (vget_correct_lemma M indexes ps).
Qed.

(** ** Masks *)
Lemma mask_yields (mask : list bool) last : last <= length mask -> forall n first, first + n = last ->
  yields (fun '((first, i) : nat * nat) =>
            if first =? last then Ok None
            else x <- rd mask first ;; Ok (Some ((S first, S i), if x then Some i else None)))
    n (first, first) (filter (fun i => nth i mask false) (seq first n)).
Proof.
  intros L. induction n as [|n IH]; intros first E.
  - cbn [seq filter]. apply yields_stop. replace first with last by lia. now rewrite Nat.eqb_refl.
  - specialize (IH (S first) ltac:(lia)). cbn [seq filter].
    assert ((first =? last) = false) as Q by (apply Nat.eqb_neq; lia).
    assert (rd mask first = Ok (nth first mask false)) as R by (apply rd_ok, nth_error_nth'; lia).
    destruct (nth first mask false) eqn:B.
    + eapply yields_one; [|exact IH]. now rewrite Q, R.
    + eapply yields_none; [|exact IH]. now rewrite Q, R.
Qed.

Lemma trues_base M mask bs : holds M mask bs ->
  filter (fun i => nth i (cbase mask) false) (seq 0 (length bs)) = trues bs.
Proof.
  intros H. unfold trues. apply filter_ext_in. intros i Hi. apply in_seq in Hi.
  destruct (holds_split _ _ _ H) as (t & -> & _). apply app_nth1. lia.
Qed.

Lemma trues_in bs i : In i (trues bs) <-> nth_error bs i = Some true.
Proof.
  unfold trues. rewrite filter_In, in_seq. split.
  - intros [L E]. rewrite <- E. apply nth_error_nth'. lia.
  - intros E. split; [|now apply nth_error_nth]. assert (i < length bs) by (apply nth_error_Some; congruence). lia.
Qed.

Lemma trues_nodup bs : NoDup (trues bs).
Proof. apply NoDup_filter, seq_NoDup. Qed.

Lemma trues_length bs : length (trues bs) <= length bs.
Proof.
  unfold trues. rewrite <- (seq_length (length bs) 0) at 2.
  induction (seq 0 (length bs)) as [|a l IH]; [reflexivity|]. cbn [filter]. destruct (nth a bs false); cbn [length]; lia.
Qed.

Lemma mask_view_correct_lemma ra d N M mask bs : holds M mask bs -> depth_bound (length bs) <= d -> length bs < d ->
  exists r, mask_view ra d N mask = Ok r /\
    (length (trues bs) <= N -> exists v, r = Returns v /\ picks v (trues bs)) /\
    (N < length (trues bs) -> r = Throws BstrModel.Length_error).
Proof.
  intros H D D'. pose proof H as (O & F & G & HL & I). unfold mask_view.
  destruct (count_correct bool bool Bool.eqb ra d (cbase mask) 0 (csize mask) true) as (n & E & C);
    [eapply holds_valid; eassumption|now rewrite G, Nat.sub_0_r|].
  rewrite E. cbn [bind].
  assert (n = length (trues bs)) as ->.
  { destruct C as (is & ND & <- & Q). apply Permutation_length.
    apply NoDup_Permutation; [assumption|apply trues_nodup|]. intros i. rewrite Q, trues_in, G. unfold sat. split.
    - intros [L (x & Hx & T)]. rewrite (holds_nth M mask bs) in Hx by (assumption || lia). now destruct x.
    - intros T. assert (i < length bs) as L by (apply nth_error_Some; congruence). split; [lia|].
      exists true. rewrite (holds_nth M mask bs) by assumption. now split. }
  pose proof (trues_length bs) as TL.
  destruct (ctor_size_correct_lemma 0 (Nat.min (length (cbase mask)) N) (length (trues bs))) as [C1 C2].
  rewrite repeat_length in C1, C2. rewrite F in *.
  destruct (Nat.le_gt_cases (length (trues bs)) N) as [LN|LN].
  - rewrite C1 by lia. set (c := varray 0 (Nat.min M N) (repeat 0 (length (trues bs)))).
    assert (holds (Nat.min M N) c (repeat 0 (length (trues bs)))) as HC
      by (apply varray_holds_lemma; rewrite repeat_length; lia).
    unfold mask_index.
    rewrite (remade_full 0 (Nat.min M N) c (repeat 0 (length (trues bs))) (trues bs)); [|assumption|now rewrite repeat_length|].
    + cbn [bind]. eexists. split; [reflexivity|]. split; [|lia]. intros _. eexists. split; [reflexivity|].
      apply (indirect_view_correct_lemma (Nat.min M N)). apply varray_holds_lemma. lia.
    + apply (pack_complate c _ (length bs)); [eapply holds_wf; eassumption| |assumption].
      rewrite <- (trues_base M mask bs H). rewrite G. apply mask_yields; lia.
  - rewrite C2 by lia. eexists. split; [reflexivity|]. split; [lia|reflexivity].
Qed.

(** ** General slices *)
Fixpoint prods (ns : list nat) : list nat :=
  match ns with
  | [] => []
  | n :: t => fold_right Nat.mul 1 (n :: t) :: prods t
  end.

Fixpoint psum {A} (op : A -> A -> A) (value : A) (xs : list A) : list A :=
  match xs with
  | [] => [value]
  | x :: t => value :: psum op (op value x) t
  end.

Lemma psum_length {A} op : forall (xs : list A) v, length (psum op v xs) = S (length xs).
Proof. induction xs as [|x t IH]; intros v; [reflexivity|]. cbn [psum length]. now rewrite IH. Qed.

Lemma partial_sum_1_ok {A} (c : cont A) (op : A -> A -> A) xs last : wf c -> csize c = last -> coff c = 0 -> last <= length xs ->
  forall n d first value args, first + n = last -> n < d -> length args + 1 = first ->
  partial_sum_impl_1 d xs first last c op value args = Ok (with_front c (args ++ psum op value (slice xs first last))).
Proof.
  intros W S O L. unfold wf in W. induction n as [|n IH]; intros d first value args E D K; (destruct d as [|d]; [lia|]); cbn [partial_sum_impl_1];
    unfold static_size.
  - rewrite slice_nil by lia. cbn [psum].
    replace (negb (first =? last)) with false by (symmetry; rewrite Bool.negb_false_iff; apply Nat.eqb_eq; lia). cbn [andb].
    assert (firstn (csize c) (args ++ [value]) = args ++ [value]) as FN by (apply firstn_all2; rewrite app_length; cbn; lia).
    assert (container_complate c (args ++ [value]) = Ok (with_front c (args ++ [value]))) as CC
      by (rewrite <- FN at 1; apply complate_front; unfold wf; lia).
    destruct (Nat.eqb_spec (length args + 1) (length (cbase c))) as [Q|Q]; [|assumption].
    rewrite <- CC. symmetry. apply complate_full. unfold static_size. rewrite app_length. exact Q.
  - destruct (Nat.eqb_spec (length args + 1) (length (cbase c))) as [Q|Q]; [lia|].
    replace (negb (first =? last)) with true by (symmetry; rewrite Bool.negb_true_iff; apply Nat.eqb_neq; lia). cbn [andb].
    destruct (Nat.ltb_spec (length args + 1) (csize c)); [|lia].
    destruct (nth_error_ex xs first ltac:(lia)) as [x Hx]. rewrite (rd_ok _ _ _ Hx). cbn [bind].
    rewrite IH; [|lia|lia|rewrite app_length; cbn; lia].
    rewrite (slice_cons xs first last x) by (assumption || lia). cbn [psum]. rewrite <- app_assoc. reflexivity.
Qed.

Lemma partial_sum_ok {A} d (c : cont A) (op : A -> A -> A) x t : wf c -> csize c = S (length t) -> coff c = 0 -> S (length t) < d ->
  fx_partial_sum d (x :: t) 0 (csize c) c op = Ok (with_front c (psum op x t)).
Proof.
  intros W S O D. unfold wf in W. unfold fx_partial_sum, static_size. rewrite S.
  destruct (Nat.eqb_spec (length (cbase c)) 0); [lia|]. cbn [Nat.eqb negb rd nth_error bind].
  rewrite (partial_sum_1_ok c op (x :: t) (Datatypes.S (length t))) with (n := length t); try (assumption || lia).
  - cbn [app]. do 3 f_equal. unfold slice. cbn [skipn]. replace (Datatypes.S (length t) - 1) with (length t) by lia. apply firstn_all.
  - reflexivity.
  - reflexivity.
Qed.

Lemma psum_snoc {A} (op : A -> A -> A) : forall xs v x, psum op v (xs ++ [x]) = psum op v xs ++ [op (fold_left op xs v) x].
Proof. induction xs as [|y t IH]; intros v x; [reflexivity|]. cbn [app psum fold_left]. now rewrite IH. Qed.

Lemma fold_mul : forall l v, fold_left Nat.mul l v = v * fold_right Nat.mul 1 l.
Proof. induction l as [|x l IH]; intros v; cbn [fold_left fold_right]; [lia|]. rewrite IH. lia. Qed.

Lemma fold_mul_app : forall l l', fold_right Nat.mul 1 (l ++ l') = fold_right Nat.mul 1 l * fold_right Nat.mul 1 l'.
Proof. induction l as [|x l IH]; intros l'; cbn [app fold_right]; [lia|]. rewrite IH. lia. Qed.

Lemma fold_mul_rev l : fold_right Nat.mul 1 (rev l) = fold_right Nat.mul 1 l.
Proof. induction l as [|x l IH]; [reflexivity|]. cbn [rev]. rewrite fold_mul_app, IH. cbn [fold_right]. lia. Qed.

(** The running products of the sizes taken backwards, read backwards, are the products of the tails. *)
Lemma psum_prods : forall ns n, match rev (ns ++ [n]) with [] => True | x :: t => rev (psum Nat.mul x t) = prods (ns ++ [n]) end.
Proof.
  intros ns n. rewrite rev_app_distr. cbn [rev app].
  induction ns as [|m ns IH]; [cbn; f_equal; lia|].
  cbn [rev]. rewrite psum_snoc, rev_app_distr. cbn [rev app]. rewrite IH. cbn [app prods]. f_equal.
  rewrite fold_mul. cbn [fold_right]. rewrite fold_mul_app, fold_mul_rev. cbn [fold_right]. lia.
Qed.

Lemma prods_length ns : length (prods ns) = length ns.
Proof. induction ns as [|n t IH]; [reflexivity|]. cbn [prods length]. now rewrite IH. Qed.

Lemma gslice_sizes_ok ra d M sizes ns : holds M sizes ns -> ns <> [] -> S (length ns) < d ->
  gslice_sizes ra d sizes = Ok (varray 0 M (prods ns)).
Proof.
  intros H Ne D. pose proof H as (O & F & G & HL & I). unfold gslice_sizes.
  rewrite G, I. destruct (exists_last Ne) as (ns' & n & ->).
  pose proof (psum_prods ns' n) as P. destruct (rev (ns' ++ [n])) as [|x t] eqn:R.
  { apply (f_equal (@length nat)) in R. rewrite rev_length, app_length in R. cbn in R. lia. }
  assert (length (ns' ++ [n]) = S (length t)) as L by (rewrite <- (rev_length (ns' ++ [n])), R; reflexivity).
  rewrite <- G. rewrite (remade_full 0 M sizes (ns' ++ [n]) (psum Nat.mul x t)); [|assumption|rewrite psum_length; lia|].
  - cbn [bind varray csize cbase]. rewrite psum_length, <- L.
    rewrite firstn_app, firstn_all2 by (rewrite psum_length; lia). rewrite psum_length, <- L, Nat.sub_diag. cbn [firstn].
    rewrite app_nil_r, P.
    rewrite fx_copy_correct.
    + apply (remade_full 0 M sizes (ns' ++ [n])); [assumption|now rewrite prods_length|].
      do 2 f_equal. unfold slice. cbn [skipn]. rewrite Nat.sub_0_r. apply firstn_all2. rewrite prods_length. lia.
    + eapply holds_wf; eassumption.
    + unfold valid. rewrite prods_length. lia.
    + lia.
  - apply partial_sum_ok; [eapply holds_wf; eassumption|lia|assumption|lia].
Qed.

(** The index function on lists *)
Fixpoint gindex (i : nat) (sizes strides : list nat) : nat :=
  match sizes, strides with
  | n :: sizes, s :: strides => s * (i / n) + gindex (i mod n) sizes strides
  | [], s :: _ => s * i
  | _, [] => 0
  end.

Lemma index_impl_ok ss : forall ps d i first1 sz st first2,
  (forall j p, nth_error ps j = Some p -> nth_error sz (first1 + j) = Some p /\ p <> 0) ->
  (forall j s, nth_error ss j = Some s -> nth_error st (first2 + j) = Some s) ->
  length ss = S (length ps) -> length ps < d ->
  index_impl d i sz first1 (first1 + length ps) st first2 = Ok (gindex i ps ss).
Proof.
  intros ps. revert ss. induction ps as [|p ps IH]; intros [|s ss] d i first1 sz st first2 P S L D; cbn [length] in *; try lia;
    (destruct d as [|d]; [lia|]); cbn [index_impl gindex].
  - rewrite Nat.add_0_r, Nat.eqb_refl. cbn [negb].
    pose proof (S 0 s eq_refl) as E. rewrite Nat.add_0_r in E. now rewrite (rd_ok _ _ _ E).
  - replace (first1 =? first1 + Datatypes.S (length ps)) with false by (symmetry; apply Nat.eqb_neq; lia). cbn [negb].
    pose proof (S 0 s eq_refl) as E. rewrite Nat.add_0_r in E. rewrite (rd_ok _ _ _ E). cbn [bind].
    destruct (P 0 p eq_refl) as [E' Z]. rewrite Nat.add_0_r in E'. rewrite (rd_ok _ _ _ E'). cbn [bind].
    destruct (Nat.eqb_spec p 0); [contradiction|].
    replace (first1 + Datatypes.S (length ps)) with (Datatypes.S first1 + length ps) by lia.
    rewrite (IH ss); [reflexivity| | |lia|lia].
    + intros j q Hq. destruct (P (Datatypes.S j) q Hq) as [Q1 Q2]. split; [|assumption]. rewrite <- Q1. f_equal. lia.
    + intros j q Hq. rewrite <- (S (Datatypes.S j) q Hq). f_equal. lia.
Qed.

Lemma grid_length : forall ns ss start, length ns = length ss -> length (grid start ns ss) = fold_right Nat.mul 1 ns.
Proof.
  induction ns as [|n ns IH]; intros [|s ss] start E; try discriminate; [reflexivity|]. cbn [grid fold_right].
  assert (forall l, length (flat_map (fun j => grid (start + s * j) ns ss) l) = length l * fold_right Nat.mul 1 ns) as K.
  { induction l as [|a l IHl]; [reflexivity|]. cbn [flat_map length]. rewrite app_length, IHl, IH by (cbn in E; lia). lia. }
  now rewrite K, seq_length.
Qed.

Lemma nth_flat_map {A} (f : nat -> list A) P : 0 < P -> (forall a, length (f a) = P) -> forall n a i, i < n * P ->
  nth_error (flat_map f (seq a n)) i = nth_error (f (a + i / P)) (i mod P).
Proof.
  intros HP L. induction n as [|n IH]; intros a i Hi; [lia|]. cbn [seq flat_map].
  destruct (Nat.lt_ge_cases i P) as [C|C].
  - rewrite nth_error_app1 by (rewrite L; assumption).
    rewrite Nat.div_small, Nat.mod_small by assumption. now rewrite Nat.add_0_r.
  - rewrite nth_error_app2 by (rewrite L; assumption). rewrite L. rewrite IH by (cbn in Hi; lia).
    assert (i = (i - P) + 1 * P) as E by lia. 
    assert (i / P = (i - P) / P + 1) as E1 by (rewrite E at 1; apply Nat.div_add; lia).
    assert (i mod P = (i - P) mod P) as E2 by (rewrite E at 1; apply Nat.mod_add; lia).
    rewrite E1, E2. f_equal. f_equal. lia.
Qed.

Lemma prods_head ns : prods ns = match ns with [] => [] | _ :: t => fold_right Nat.mul 1 ns :: prods t end.
Proof. destruct ns; reflexivity. Qed.

Lemma grid_nth : forall ns ss n s start i, length ns = length ss -> i < fold_right Nat.mul 1 (n :: ns) ->
  nth_error (grid start (n :: ns) (s :: ss)) i = Some (start + gindex i (prods ns) (s :: ss)).
Proof.
  induction ns as [|m ns IH]; intros [|s' ss] n s start i E Hi; try discriminate; cbn [grid].
  - cbn [fold_right] in Hi. rewrite (nth_flat_map _ 1) by (reflexivity || lia).
    cbn [prods gindex]. rewrite Nat.div_1_r, Nat.mod_1_r. reflexivity.
  - set (P := fold_right Nat.mul 1 (m :: ns)) in *.
    change (fold_right Nat.mul 1 (n :: m :: ns)) with (n * P) in Hi.
    assert (0 < P) as HP by (destruct (Nat.eq_dec P 0) as [Q|Q]; [rewrite Q in Hi; lia|lia]).
    assert (forall a, length (grid (start + s * a) (m :: ns) (s' :: ss)) = P) as LG by (intros a; now apply grid_length).
    etransitivity; [exact (nth_flat_map (fun j => grid (start + s * j) (m :: ns) (s' :: ss)) P HP LG n 0 i Hi)|].
    rewrite Nat.add_0_l.
    rewrite IH; [|cbn in E; lia|apply Nat.mod_upper_bound; lia].
    cbn [prods gindex]. fold P. f_equal. lia.
Qed.

Lemma prods_positive : forall ns j p, fold_right Nat.mul 1 ns <> 0 -> nth_error (prods ns) j = Some p -> p <> 0.
Proof.
  induction ns as [|n ns IH]; intros [|j] p H E; try discriminate; cbn [prods nth_error] in E.
  - congruence.
  - apply (IH j p); [|assumption]. cbn [fold_right] in H. intros Q. rewrite Q in H. lia.
Qed.

Lemma gslice_view_correct_lemma ra d N M start sizes strides ns ss : holds M sizes ns -> holds M strides ss ->
  length ss = length ns -> ns <> [] -> S (length ns) < d ->
  exists v, gslice_view ra d N start sizes strides = Ok v /\ picks v (grid start ns ss).
Proof.
  intros H K E Ne D. unfold gslice_view. rewrite (gslice_sizes_ok ra d M sizes ns) by assumption. cbn [bind].
  destruct ns as [|n ns]; [congruence|]. destruct ss as [|s ss]; [discriminate|].
  cbn [varray cbase csize]. rewrite prods_length.
  set (b := prods (n :: ns) ++ repeat 0 (M - length (n :: ns))).
  assert (rd b 0 = Ok (fold_right Nat.mul 1 (n :: ns))) as R by reflexivity.
  rewrite R. cbn [bind]. eexists. split; [reflexivity|]. split.
  - cbn [vlen]. symmetry. apply grid_length. cbn in *. lia.
  - intros i p Hp. assert (i < fold_right Nat.mul 1 (n :: ns)) as L.
    { rewrite <- (grid_length (n :: ns) (s :: ss) start) by (cbn in *; lia). apply nth_error_Some. congruence. }
    cbn [vidx]. destruct (Nat.ltb_spec i (fold_right Nat.mul 1 (n :: ns))); [|lia].
    rewrite grid_nth in Hp by (assumption || (cbn in *; lia)).
    pose proof (index_impl_ok (s :: ss) (prods ns) d i 1 b (cbase strides) 0) as IX.
    rewrite prods_length in IX. change (1 + length ns) with (length (n :: ns)) in IX. rewrite IX.
    + cbn [bind]. congruence.
    + intros j q Hq. assert (j < length ns) by (rewrite <- (prods_length ns); apply nth_error_Some; congruence).
      split.
      * unfold b. rewrite nth_error_app1 by (rewrite prods_length; cbn; lia). exact Hq.
      * apply (prods_positive (n :: ns) (S j)); [lia|exact Hq].
    + intros j q Hq. rewrite (holds_nth M strides (s :: ss)); [exact Hq|assumption|apply nth_error_Some; cbn [Nat.add]; congruence].
    + cbn in *. lia.
    + cbn in *. lia.
Qed.

(** ** Reading and writing through views *)
Lemma vempty_refuted_lemma A N (c : cont A) xs : holds N c xs -> vempty c = true <-> xs <> [].
Proof.
  intros (_ & _ & G & _). unfold vempty. rewrite G. destruct xs; cbn; split; congruence.
Qed.

Lemma vshift_refuted_lemma : exists (c c' : cont nat) xs, holds 3 c xs /\ vshift 0 true 9 c 1 = Ok c' /\
  ~ holds 3 c' (shifted 0 xs 1).
Proof.
  exists (Cont [1;2;3] 0 3), (Cont [2;3;3] 0 3), [1;2;3]. split; [now repeat split|]. split; [reflexivity|].
  intros (_ & _ & _ & _ & H). discriminate.
Qed.

Section Views.
  Context {A : Type}.
  Variable z : A.
  Implicit Types (c : cont A) (xs ys : list A).

  Lemma view_get_ok N c xs v ps : holds N c xs -> picks v ps -> (forall p, In p ps -> p < length xs) ->
    reads (view_get c v) (map (fun p => nth p xs z) ps).
  Proof.
    intros H [P1 P2] B i x E. rewrite nth_error_map in E. destruct (nth_error ps i) as [p|] eqn:Q; [|discriminate].
    cbn [option_map] in E. unfold view_get. rewrite (P2 i p Q). cbn [bind].
    apply (vget_correct_lemma N c xs); [assumption|]. rewrite <- E. apply nth_error_nth', B.
    eapply nth_error_In; eassumption.
  Qed.

  Lemma view_read_correct_lemma N M c xs v ps : holds N c xs -> picks v ps -> (forall p, In p ps -> p < length xs) ->
    exists r, view_read z M c v = Ok r /\ if_fits M (map (fun p => nth p xs z) ps) r z.
  Proof.
    intros H P B. pose proof (view_get_ok N c xs v ps H P B) as R. unfold view_read.
    rewrite (proj1 P). rewrite <- (map_length (fun p => nth p xs z) ps). now apply ctor_seq_correct_lemma.
  Qed.

  Lemma view_front_back_correct_lemma N c xs v ps : holds N c xs -> picks v ps -> (forall p, In p ps -> p < length xs) ->
    forall p m, (ps = p :: m -> view_front c v = Ok (nth p xs z)) /\ (ps = m ++ [p] -> view_back c v = Ok (nth p xs z)).
  Proof.
    intros H P B p m. pose proof (view_get_ok N c xs v ps H P B) as R. split; intros ->.
    - unfold view_front. apply R. reflexivity.
    - unfold view_back. rewrite (proj1 P), app_length. cbn [length].
      replace (length m + 1 =? 0) with false by (symmetry; apply Nat.eqb_neq; lia).
      replace (length m + 1 - 1) with (length m) by lia. apply R.
      rewrite nth_error_map, nth_error_app2, Nat.sub_diag by lia. reflexivity.
  Qed.

  Lemma view_update_ok N op f v ps : reads (vidx v) ps -> forall ys qs i c xs,
    holds N c xs -> NoDup qs -> length qs = length ys -> (forall j, j < length qs -> nth_error qs j = nth_error ps (i + j)) ->
    (forall j y, nth_error ys j = Some y -> f (i + j) = Ok y) -> (forall p, In p qs -> p < length xs) ->
    exists c' xs', view_update op f v i (length ys) c = Ok c' /\ holds N c' xs' /\ spread op qs ys xs xs'.
  Proof.
    clear z. intros R. induction ys as [|y ys IH]; intros qs i c xs H ND L Q F B.
    - exists c, xs. split; [reflexivity|]. split; [assumption|]. split; [reflexivity|]. split.
      + intros [|j] p x y _ Hy; discriminate.
      + reflexivity.
    - destruct qs as [|q qs]; [discriminate|]. cbn [length view_update].
      pose proof (F 0 y eq_refl) as F0. rewrite Nat.add_0_r in F0. rewrite F0. cbn [bind].
      pose proof (Q 0 ltac:(cbn; lia)) as Q0. rewrite Nat.add_0_r in Q0. cbn [nth_error] in Q0.
      rewrite (R i q (eq_sym Q0)). cbn [bind].
      assert (q < length xs) as Lq by (apply B; now left).
      destruct (nth_error_ex xs q Lq) as [x Hx].
      rewrite (proj1 (vget_correct_lemma N c xs q x H Hx)). cbn [bind].
      destruct (vset_correct_lemma N c xs q (op x y) H Lq) as (c1 & E1 & H1). rewrite E1. cbn [bind].
      inversion ND as [|? ? NI ND']; subst.
      destruct (IH qs (S i) c1 (upd xs q (op x y)) H1 ND') as (c' & xs' & E & H' & S1 & S2 & S3).
      + cbn in L. lia.
      + intros j Hj. pose proof (Q (S j) ltac:(cbn; lia)) as QJ. cbn [nth_error] in QJ. rewrite QJ. f_equal. lia.
      + intros j w Hw. rewrite <- (F (S j) w Hw). f_equal. lia.
      + intros p Hp. rewrite upd_length. apply B. now right.
      + exists c', xs'. split; [exact E|]. split; [assumption|]. rewrite upd_length in S1. split; [assumption|]. split.
        * intros [|j] p x' y' Hp Hy Hx'; cbn [nth_error] in Hp, Hy.
          -- injection Hp as <-. injection Hy as <-. rewrite S3.
             ++ rewrite upd_eq by assumption. congruence.
             ++ intros J. apply NI. rewrite firstn_all2 in J by (cbn in L; lia). exact J.
          -- apply (S2 j p x' y'); [assumption|assumption|]. rewrite upd_neq; [assumption|].
             intros <-. apply NI. eapply nth_error_In; eassumption.
        * intros p Np. rewrite S3.
          -- apply upd_neq. intros <-. apply Np. now left.
          -- intros J. apply Np. now right.
  Qed.

  Lemma view_update_correct_lemma N op f v c xs ps ys : holds N c xs -> picks v ps -> NoDup ps ->
    (forall p, In p ps -> p < length xs) -> reads f ys -> length ys <= length ps ->
    exists c' xs', view_update op f v 0 (length ys) c = Ok c' /\ holds N c' xs' /\ spread op ps ys xs xs'.
  Proof.
    clear z. intros H P ND B R L.
    assert (forall p, In p (firstn (length ys) ps) -> In p ps) as SUB
      by (intros p Hp; rewrite <- (firstn_skipn (length ys) ps); apply in_or_app; now left).
    destruct (view_update_ok N op f v ps (proj2 P) ys (firstn (length ys) ps) 0 c xs H) as (c' & xs' & E & H' & S1 & S2 & S3).
    - rewrite <- (firstn_skipn (length ys) ps) in ND. exact (nodup_app_l _ _ ND).
    - rewrite firstn_length. lia.
    - intros j Hj. rewrite firstn_length in Hj. rewrite nth_error_firstn by lia. reflexivity.
    - exact R.
    - intros p Hp. apply B, SUB, Hp.
    - exists c', xs'. split; [assumption|]. split; [assumption|]. split; [assumption|]. split.
      + intros i p x y Hp Hy Hx. apply (S2 i p x y); [|assumption|assumption].
        assert (i < length ys) by (apply nth_error_Some; congruence). now rewrite nth_error_firstn.
      + intros p Np. apply S3. intros J. apply Np. rewrite firstn_firstn in J. now rewrite Nat.min_id in J.
  Qed.

  Lemma view_fill_correct_lemma N v x c xs ps : holds N c xs -> picks v ps -> NoDup ps ->
    (forall p, In p ps -> p < length xs) ->
    exists c' xs', view_fill v x c = Ok c' /\ holds N c' xs' /\ length xs' = length xs /\
      (forall p, In p ps -> nth_error xs' p = Some x) /\ (forall p, ~ In p ps -> nth_error xs' p = nth_error xs p).
  Proof.
    clear z. intros H P ND B. unfold view_fill. rewrite (proj1 P), <- (repeat_length x (length ps)).
    destruct (view_update_correct_lemma N (fun _ y => y) (fun _ => Ok x) v c xs ps (repeat x (length ps)) H P ND B (reads_repeat x _))
      as (c' & xs' & E & H' & S1 & S2 & S3); [rewrite repeat_length; lia|].
    exists c', xs'. split; [assumption|]. split; [assumption|]. split; [assumption|]. split.
    - intros p Hp. apply In_nth_error in Hp. destruct Hp as [i Hi].
      destruct (nth_error_ex xs p (B p (nth_error_In _ _ Hi))) as [o Ho].
      apply (S2 i p o x Hi); [|assumption]. assert (i < length ps) by (apply nth_error_Some; congruence).
      rewrite (nth_error_nth' _ x) by (now rewrite repeat_length). now rewrite nth_repeat.
    - intros p Np. apply S3. rewrite repeat_length, firstn_all. exact Np.
  Qed.
End Views.

Lemma vswap_correct_lemma : forall (A : Type) N (c e : cont A) xs ys, holds N c xs -> holds N e ys ->
  holds N (fst (vswap c e)) ys /\ holds N (snd (vswap c e)) xs.
Proof. intros A N c e xs ys (H1 & H2) (H3 & H4). unfold vswap, holds. cbn [fst snd cbase coff csize]. tauto. Qed.
