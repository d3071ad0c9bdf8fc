(** Proofs about BstrModel.v: construction, substr, copy, comparison, concatenation. *)
From Coq Require Import List Arith ZArith Bool Lia.
From Coq Require Import ZifyBool ZifyNat.
From Verif Require Import Base BaseProof ListFacts SearchModel SearchSpec SearchProof OrderSpec OrderProof MutModel MutSpec MutProof
  MutProof2 BsModel BsProof StrModel StrSpec StrProof StrProof2 StrProof3 BstrModel BstrSpec BstrProof.
Import ListNotations.
Open Scope Z_scope.

(** ** Tables *)
Lemma tab_image (f : nat -> res Z) N J cs : (length cs <= J)%nat -> (J <= N)%nat ->
  (forall i, (i < J)%nat -> f i = Ok (nth i cs 0)) ->
  (l <- tab J f ;; Ok (l ++ repeat 0 (N + 1 - J))) = Ok (image N cs).
Proof.
  intros L1 L2 H. rewrite (tab_ok f (fun i => nth i cs 0) J H). cbn [bind]. f_equal.
  apply lst_ext.
  - rewrite image_length by lia. rewrite app_length, map_length, seq_length, repeat_length. lia.
  - intros i Hi. rewrite nth_pad, image_nth. destruct (Nat.lt_ge_cases i J) as [C|C].
    + rewrite (nth_indep _ 0 (nth 0 cs 0)) by (rewrite map_length, seq_length; exact C).
      change (nth 0 cs 0) with ((fun i => nth i cs 0) 0%nat). rewrite map_nth, seq_nth by exact C. reflexivity.
    + rewrite !nth_overflow; [reflexivity|lia|rewrite map_length, seq_length; lia].
Qed.

Lemma sub_nth cs pos n i : nth i (sub cs pos n) 0 = if (i <? n)%nat then nth (pos + i) cs 0 else 0.
Proof.
  unfold sub. destruct (Nat.ltb_spec i n) as [C|C].
  - rewrite nth_firstn_lt by exact C. apply nth_skipn.
  - apply nth_overflow. rewrite firstn_length. lia.
Qed.

(** the unchecked constructor *)
Lemma construct_lemma N J str pos n xs : (J <= N)%nat -> (n <= J)%nat ->
  length xs = n -> (forall i, (i < n)%nat -> nth_error str (pos + i) = Some (nth i xs 0)) ->
  construct N J str pos n = built N xs.
Proof.
  intros JN NJ L H. unfold construct, init_elems, built. replace (length xs <=? N)%nat with true by lia.
  rewrite (tab_image _ N J xs); [cbn [bind]; now rewrite L|lia|lia|].
  intros i I. destruct (Nat.ltb_spec i n) as [C|C].
  - apply rd_ok. rewrite Nat.add_comm. now apply H.
  - now rewrite nth_overflow by lia.
Qed.
(** the checked ones; [xs] may be longer than N *)
Lemma checked_construct_lemma N str pos n xs :
  length xs = n -> (forall i, (i < n)%nat -> (i < N)%nat -> nth_error str (pos + i) = Some (nth i xs 0)) ->
  checked_construct N str pos n = built N xs.
Proof.
  intros L H. unfold checked_construct, init_elems, built.
  rewrite (tab_image _ N N (firstn N xs)); [|rewrite firstn_length; lia|lia|].
  - cbn [bind]. destruct (Nat.ltb_spec N n) as [C|C]; cbn [negb].
    + now replace (length xs <=? N)%nat with false by lia.
    + replace (length xs <=? N)%nat with true by lia. rewrite L, firstn_all2 by lia. reflexivity.
  - intros i I. rewrite nth_firstn_lt by exact I. destruct (Nat.ltb_spec i n) as [C|C].
    + apply rd_ok. rewrite Nat.add_comm. now apply H.
    + now rewrite nth_overflow by lia.
Qed.

Lemma holds_ne m b N len cs j : holds m b N len cs -> (j <= N)%nat -> nth_error m (b + j) = Some (nth j cs 0).
Proof.
  intros H J. rewrite <- (holds_nth m b N len cs j H J). apply ok_nth. destruct H as (_ & _ & H & _). lia.
Qed.

Lemma string_default_lemma N : Ok (Some (string_default N)) = built N [].
Proof. unfold string_default, built, image. cbn [length app Nat.leb]. now rewrite Nat.sub_0_r. Qed.
Lemma string_widen_lemma N N2 str len2 cs : holds str 0 N2 len2 cs -> (N2 < N)%nat ->
  string_widen N N2 str len2 = built N cs.
Proof.
  intros H L. pose proof H as (E & L2 & _). unfold string_widen. apply construct_lemma; try lia.
  intros i I. apply (holds_ne str 0 N2 len2 cs i H). lia.
Qed.
Lemma string_sub_lemma M N J str len2 cs pos n : holds str 0 J len2 cs -> (J <= N)%nat -> (J < M)%nat -> (pos <= len2)%nat ->
  string_sub M N J str len2 pos n = built N (sub cs pos n).
Proof.
  intros H L W P. pose proof H as (E & L2 & _). unfold string_sub. rewrite subz_id by lia.
  apply construct_lemma; try lia.
  - rewrite sub_length. lia.
  - intros i I. rewrite sub_nth. replace (i <? n)%nat with true by lia. apply (holds_ne str 0 J len2 cs (pos + i) H). lia.
Qed.

(** strlen of an array with no terminator needed *)
Lemma upto_nul_spec cs : ~ In 0 (upto_nul cs) /\ (length (upto_nul cs) <= length cs)%nat /\
  upto_nul cs = firstn (length (upto_nul cs)) cs /\
  ((length (upto_nul cs) < length cs)%nat -> nth_error cs (length (upto_nul cs)) = Some 0).
Proof.
  induction cs as [|x cs (I1 & I2 & I3 & I4)]; cbn [upto_nul].
  - cbn. intuition lia.
  - destruct (Z.eqb_spec x 0) as [->|Hx].
    + cbn. intuition lia.
    + cbn [length]. repeat split.
      * intros [A|A]; auto.
      * lia.
      * cbn [firstn]. now rewrite <- I3.
      * intros A. cbn. apply I4. lia.
Qed.
Lemma upto_nul_id cs : ~ In 0 cs -> upto_nul cs = cs.
Proof.
  induction cs as [|x cs IH]; intros H; cbn [upto_nul]; [reflexivity|].
  destruct (Z.eqb_spec x 0) as [->|Hx]; [exfalso; apply H; now left|]. f_equal. apply IH. intros A. apply H. now right.
Qed.
Lemma upto_nul_app cs t : ~ In 0 cs -> upto_nul (cs ++ 0 :: t) = cs.
Proof.
  induction cs as [|x cs IH]; intros H; cbn [upto_nul app]; [reflexivity|].
  destruct (Z.eqb_spec x 0) as [->|Hx]; [exfalso; apply H; now left|]. f_equal. apply IH. intros A. apply H. now right.
Qed.

Lemma upto_cstr_n m p cs : block m p cs -> cstr_n m p (length cs) (upto_nul cs).
Proof.
  intros B. destruct (upto_nul_spec cs) as (I1 & I2 & I3 & I4). repeat split; try assumption.
  - intros i x X. apply B. rewrite I3 in X. rewrite <- X. symmetry. apply ne_firstn.
    assert (i < length (firstn (length (upto_nul cs)) cs))%nat by (apply nth_error_Some; congruence).
    rewrite firstn_length in H. lia.
  - intros L. apply B. auto.
Qed.

Lemma string_array_lemma d N N2 arr : length arr = N2 -> (1 <= N2)%nat -> (N2 - 1 <= N)%nat -> (depth_bound (N2 - 1) <= d)%nat ->
  string_array d N N2 arr = built N (upto_nul (firstn (N2 - 1) arr)) /\
  forall n, string_array_n d N N2 arr n = built N (firstn n (upto_nul (firstn (N2 - 1) arr))).
Proof.
  intros L P Q D. set (cs := firstn (N2 - 1) arr).
  assert (Lc : length cs = (N2 - 1)%nat) by (unfold cs; rewrite firstn_length; lia).
  assert (B : block arr 0 cs).
  { intros i x X. unfold cs in X. assert (i < length cs)%nat by (apply nth_error_Some; unfold cs; congruence).
    rewrite ne_firstn in X by lia. exact X. }
  pose proof (upto_cstr_n arr 0 cs B) as C. rewrite Lc in C.
  destruct (upto_nul_spec cs) as (I1 & I2 & I3 & I4).
  assert (R : forall i, (i < length (upto_nul cs))%nat -> nth_error arr (0 + i) = Some (nth i (upto_nul cs) 0)).
  { intros i I. destruct C as (C & _). apply block_nth; assumption. }
  unfold string_array, string_array_n, helper_length. rewrite (strlen_n_lemma d arr 0 (N2 - 1) _ C D). cbn [bind]. split.
  - apply construct_lemma; try lia. exact R.
  - intros n. apply construct_lemma; try lia.
    + rewrite firstn_length. reflexivity.
    + intros i I. rewrite nth_firstn_lt by lia. apply R. lia.
Qed.

Lemma string_cstr_lemma d N m s xs : cstr m s xs -> (depth_bound (length xs) <= d)%nat ->
  string_cstr d N m s = built N xs /\ forall n, string_cstr_n d N m s n = built N (firstn n xs).
Proof.
  intros C D. unfold string_cstr, string_cstr_n, traits_length. rewrite (strlen_lemma d m s xs C D). cbn [bind].
  destruct C as (B & _ & _).
  assert (R : forall i, (i < length xs)%nat -> nth_error (skipn s m) (0 + i) = Some (nth i xs 0)).
  { intros i I. rewrite ne_skipn. apply block_nth; assumption. }
  split.
  - apply checked_construct_lemma; [reflexivity|]. intros i I _. now apply R.
  - intros n. apply checked_construct_lemma; [now rewrite firstn_length|].
    intros i I _. rewrite nth_firstn_lt by lia. apply R. lia.
Qed.

Lemma string_fill_lemma N n c : string_fill N n c = built N (repeat c n).
Proof.
  unfold string_fill, built. rewrite repeat_length.
  pose proof (tab_image (fun i => Ok (if (i <? n)%nat then c else 0)) N N (repeat c (Nat.min N n))) as T.
  rewrite repeat_length in T. specialize (T ltac:(lia) ltac:(lia)).
  assert (G : forall i, (i < N)%nat -> Ok (if (i <? n)%nat then c else 0) = Ok (nth i (repeat c (Nat.min N n)) 0)).
  { intros i I. f_equal. destruct (Nat.ltb_spec i n) as [C|C].
    - symmetry. rewrite (nth_indep _ 0 c) by (rewrite repeat_length; lia). apply nth_repeat.
    - now rewrite nth_overflow by (rewrite repeat_length; lia). }
  specialize (T G). destruct (tab N (fun i => Ok (if (i <? n)%nat then c else 0))) as [l| |]; cbn [bind] in T |- *; try discriminate T.
  destruct (Nat.ltb_spec N n) as [C|C]; cbn [negb].
  - now replace (n <=? N)%nat with false by lia.
  - replace (n <=? N)%nat with true by lia. injection T as T. rewrite T. now replace (Nat.min N n) with n by lia.
Qed.

Lemma string_range_ra_lemma N str first xs : block str first xs ->
  string_range_ra N str first (first + length xs) = built N xs.
Proof.
  intros B. unfold string_range_ra. apply checked_construct_lemma; [lia|]. intros i I _. apply block_nth; [assumption|lia].
Qed.

Lemma constant_size_source_lemma N xs : forall args, (length args <= N)%nat ->
  constant_size_source N xs args =
    (rev args ++ firstn (N - length args) xs, Nat.min (N + 1) (length args + length xs)).
Proof.
  induction xs as [|x xs IH]; intros args L; cbn [constant_size_source].
  - destruct (Nat.eqb_spec (length args) N); cbn [length]; rewrite firstn_nil, app_nil_r; f_equal; lia.
  - destruct (Nat.eqb_spec (length args) N) as [E|E].
    + cbn [length]. replace (N - length args)%nat with 0%nat by lia. cbn [firstn]. rewrite app_nil_r. f_equal. lia.
    + rewrite IH by (cbn [length]; lia). cbn [rev length]. rewrite <- app_assoc. cbn [app].
      replace (N - length args)%nat with (S (N - S (length args))) by lia. cbn [firstn]. f_equal. lia.
Qed.
Lemma string_range_in_lemma N xs : string_range_in N xs = built N xs.
Proof.
  unfold string_range_in, built. rewrite constant_size_source_lemma by (cbn; lia). cbn [rev app length]. rewrite Nat.sub_0_r, Nat.add_0_l.
  set (arr := firstn N xs ++ repeat 0 (N - length (firstn N xs))).
  set (f := fun i => if (i <? Nat.min (N + 1) (length xs))%nat then rd arr i else Ok 0).
  pose proof (tab_image f N N (firstn N xs)) as T. rewrite firstn_length in T. specialize (T ltac:(lia) ltac:(lia)).
  assert (La : length arr = N) by (unfold arr; rewrite app_length, repeat_length, firstn_length; lia).
  assert (G : forall i, (i < N)%nat -> f i = Ok (nth i (firstn N xs) 0)).
  { intros i I. unfold f. destruct (Nat.ltb_spec i (Nat.min (N + 1) (length xs))) as [C|C].
    - apply rd_ok. rewrite ok_nth by lia. unfold arr. now rewrite nth_pad.
    - now rewrite nth_overflow by (rewrite firstn_length; lia). }
  specialize (T G). destruct (tab N f) as [l| |]; cbn [bind] in T |- *; try discriminate T. injection T as T.
  destruct (Nat.leb_spec (length xs) N) as [C|C].
  - replace (N <? Nat.min (N + 1) (length xs))%nat with false by lia. cbn [negb]. rewrite T. rewrite firstn_all2 by lia.
    do 3 f_equal. lia.
  - replace (N <? Nat.min (N + 1) (length xs))%nat with true by lia. reflexivity.
Qed.

(** pos beyond the end of the source *)
Lemma string_sub_bad_lemma M N str : holds str 0 N 0 [] -> (N + 1 < M)%nat ->
  string_sub M N N str 0 1 (npos M) = Ok (Some (image N [], npos M)).
Proof.
  intros H W. unfold string_sub, construct, subz, npos. replace (0 + M - 1)%nat with (M - 1)%nat by lia.
  rewrite Nat.mod_small by lia. rewrite Nat.min_id. unfold init_elems.
  rewrite (tab_image _ N N []); [reflexivity|cbn; lia|lia|].
  intros i I. replace (i <? M - 1)%nat with true by lia. rewrite Nat.add_comm.
  pose proof (holds_ne str 0 N 0 [] (1 + i) H ltac:(lia)) as R. rewrite (rd_ok str (1 + i) _ R). now destruct i.
Qed.

(** ** substr, copy *)
Lemma block_sub m b cs pos n : block m b cs -> block m (b + pos) (sub cs pos n).
Proof.
  intros B i x X. assert (I : (i < length (sub cs pos n))%nat) by (apply nth_error_Some; congruence).
  assert (I2 : (i < n)%nat) by (unfold sub in I; rewrite firstn_length in I; lia).
  rewrite <- Nat.add_assoc. apply B. unfold sub in X. rewrite ne_firstn in X by exact I2. rewrite ne_skipn in X. exact X.
Qed.
Section Read.
  Variables (m : list Z) (b N len : nat) (cs : list Z).
  Hypothesis H : holds m b N len cs.

  Lemma tail_cstr pos : (pos <= len)%nat -> cstr m (b + pos) (upto_nul (skipn pos cs)).
  Proof.
    intros P. pose proof H as (E & L & B & _). destruct (upto_nul_spec (skipn pos cs)) as (I1 & I2 & I3 & I4).
    rewrite skipn_length in *.
    assert (G : forall i, (i <= length (skipn pos cs))%nat -> nth_error m (b + pos + i) = Some (nth i (skipn pos cs) 0)).
    { intros i I. rewrite skipn_length in I. rewrite nth_skipn. rewrite <- (holds_ne m b N len cs (pos + i) H) by lia. f_equal. lia. }
    repeat split; try assumption.
    - intros i x X. assert (I : (i < length (upto_nul (skipn pos cs)))%nat) by (apply nth_error_Some; congruence).
      rewrite G by (rewrite skipn_length; lia). rewrite I3 in X. rewrite ne_firstn in X by exact I.
      f_equal. rewrite nth_ne, X. reflexivity.
    - rewrite G by (rewrite skipn_length; lia). f_equal.
      destruct (Nat.lt_ge_cases (length (upto_nul (skipn pos cs))) (length cs - pos)) as [C|C].
      + rewrite nth_ne. now rewrite I4 by exact C.
      + apply nth_overflow. rewrite skipn_length. lia.
  Qed.

  Lemma substr_lemma d pos n : (depth_bound len <= d)%nat ->
    substr d N m b len pos n =
      if (pos <=? len)%nat then Ok (inr (Some (image N (firstn n (upto_nul (skipn pos cs))), length (firstn n (upto_nul (skipn pos cs))))))
      else Ok (inl tt).
  Proof.
    intros D. pose proof H as (E & L & B & _). unfold substr.
    destruct (Nat.leb_spec pos len) as [C|C].
    2:{ replace (len <? pos)%nat with true by lia. reflexivity. }
    replace (len <? pos)%nat with false by lia. cbn [negb].
    destruct (upto_nul_spec (skipn pos cs)) as (I1 & I2 & I3 & I4). rewrite skipn_length in I2.
    destruct (string_cstr_lemma d N m (b + pos) _ (tail_cstr pos C)) as (_ & S2).
    { pose proof (Nat.log2_le_mono (length (upto_nul (skipn pos cs))) len ltac:(lia)). unfold depth_bound in *. lia. }
    rewrite S2. unfold built.
    assert (Q : firstn (Nat.min n (len - pos)) (upto_nul (skipn pos cs)) = firstn n (upto_nul (skipn pos cs))).
    { destruct (Nat.le_ge_cases n (len - pos)); [now rewrite Nat.min_l by lia|].
      rewrite Nat.min_r by lia. rewrite !firstn_all2 by lia. reflexivity. }
    rewrite Q. cbn [bind].
    replace (length (firstn n (upto_nul (skipn pos cs))) <=? N)%nat with true by (rewrite firstn_length; lia). reflexivity.
  Qed.

  Lemma copy_out_lemma k s n pos : (pos < len)%nat -> (s + Nat.min n (len - pos) <= length m)%nat -> (len < k)%nat ->
    (s + Nat.min n (len - pos) <= b \/ b + N + 1 <= s)%nat ->
    copy_out k m b len s n pos = Ok (paste m s (sub cs pos n), Some (length (sub cs pos n))).
  Proof.
    intros P Q K A. pose proof H as (E & L & B & _). unfold copy_out, rangecheck. replace (len <=? pos)%nat with false by lia.
    unfold traits_copy. rewrite copy_correct_lemma; unfold valid, forward_safe; try lia. cbn [bind fst].
    assert (S : slice m (b + pos) (b + pos + Nat.min n (len - pos)) = sub cs pos n).
    { pose proof (block_slice m (b + pos) (sub cs pos n)) as T. rewrite sub_length, <- E in T. apply T; [|lia].
      apply block_sub. eapply holds_block. eassumption. }
    rewrite S, sub_length, <- E. reflexivity.
  Qed.
  Lemma copy_out_end_lemma k s n : copy_out k m b len s n len = Ok (m, None).
  Proof. unfold copy_out, rangecheck. now rewrite Nat.leb_refl. Qed.
  Lemma at_lemma i : at_ m b len i = Ok (nth_error cs i).
  Proof.
    pose proof H as (E & L & B & _). unfold at_. destruct (Nat.ltb_spec i len) as [C|C].
    - rewrite (rd_ok _ _ _ (holds_ne m b N len cs i H ltac:(lia))). cbn [bind]. f_equal. symmetry. apply ok_nth. lia.
    - f_equal. symmetry. apply nth_error_None. lia.
  Qed.
End Read.

(** ** Comparison *)
Lemma lexcmp_refl s : lexcmp s s = Eq.
Proof. induction s as [|x s IH]; cbn; [reflexivity|]. now rewrite Z.compare_refl. Qed.

Lemma lexcmp_upto_nonneg s : forall t, length s = length t -> Forall (fun x => 0 <= x) s -> Forall (fun x => 0 <= x) t ->
  ~ In 0 s \/ ~ In 0 t -> lexcmp (upto_nul s) (upto_nul t) = lexcmp s t.
Proof.
  induction s as [|x s IH]; intros [|y t] L Fs Ft Z0; cbn [length] in L; try lia; [reflexivity|].
  inversion Fs; inversion Ft; subst. cbn [upto_nul lexcmp].
  destruct (Z.eqb_spec x 0) as [->|Hx]; destruct (Z.eqb_spec y 0) as [->|Hy]; cbn [lexcmp].
  - exfalso. destruct Z0 as [A|A]; apply A; now left.
  - replace (0 ?= y) with Lt; [reflexivity|]. symmetry. apply Z.compare_lt_iff. lia.
  - replace (x ?= 0) with Gt; [reflexivity|]. symmetry. apply Z.compare_gt_iff. lia.
  - destruct (x ?= y); try reflexivity. apply IH; try assumption; [lia|].
    destruct Z0 as [A|A]; [left|right]; intros B; apply A; now right.
Qed.
Lemma lexcmp_upto s t : length s = length t -> comparable s t -> lexcmp (upto_nul s) (upto_nul t) = lexcmp s t.
Proof.
  intros L [(A & B)|(A & Fs & Ft)]; [now rewrite !upto_nul_id|now apply lexcmp_upto_nonneg].
Qed.

Lemma lexcmp_firstn s : forall t, lexcmp s t =
  match lexcmp (firstn (Nat.min (length s) (length t)) s) (firstn (Nat.min (length s) (length t)) t) with
  | Eq => Nat.compare (length s) (length t) | Lt => Lt | Gt => Gt end.
Proof.
  induction s as [|x s IH]; intros [|y t]; cbn; try reflexivity. destruct (x ?= y); try reflexivity. apply IH.
Qed.

Lemma compare_impl_1_reports c n1 n2 k : reports c k ->
  reports (compare_impl_1 c n1 n2) (match k with Eq => Nat.compare n1 n2 | Lt => Lt | Gt => Gt end).
Proof.
  intros R. unfold compare_impl_1. destruct k; cbn in R.
  - subst c. cbn [Z.eqb negb]. destruct (Nat.compare_spec n1 n2); cbn [reports];
      destruct (Nat.ltb_spec n1 n2); destruct (Nat.ltb_spec n2 n1); lia.
  - replace (c =? 0) with false by lia. cbn. exact R.
  - replace (c =? 0) with false by lia. cbn. exact R.
Qed.

(** any two runs of characters, compared *)
Lemma compare_impl_lemma d m1 m2 p pos s xs ys : block m1 (p + pos) xs -> block m2 s ys ->
  (depth_bound (Nat.min (length xs) (length ys)) <= d)%nat ->
  exists r, compare_impl d m1 m2 p pos (length xs) s (length ys) = Ok r /\
    reports r (match lexcmp (upto_nul (firstn (Nat.min (length xs) (length ys)) xs)) (upto_nul (firstn (Nat.min (length xs) (length ys)) ys)) with
               | Eq => Nat.compare (length xs) (length ys) | Lt => Lt | Gt => Gt end).
Proof.
  intros B1 B2 D. set (n := Nat.min (length xs) (length ys)) in *. unfold compare_impl, traits_compare. fold n.
  assert (F : forall m q zs, block m q zs -> (n <= length zs)%nat -> cstr_n m q n (upto_nul (firstn n zs))).
  { intros m q zs B L. pose proof (upto_cstr_n m q (firstn n zs)) as U. rewrite firstn_length in U.
    replace (Nat.min n (length zs)) with n in U by lia. apply U. intros i x X.
    assert (i < length (firstn n zs))%nat by (apply nth_error_Some; congruence). rewrite firstn_length in H.
    rewrite ne_firstn in X by lia. now apply B. }
  destruct (strncmp_lemma d m1 m2 (p + pos) s n _ _ (F _ _ _ B1 ltac:(lia)) (F _ _ _ B2 ltac:(lia)) D) as (r & E & R).
  rewrite E. cbn [bind]. eexists. split; [reflexivity|]. exact (compare_impl_1_reports r _ _ _ R).
Qed.

Lemma comparable_incl s t s' t' : (forall x, In x s' -> In x s) -> (forall x, In x t' -> In x t) -> comparable s t -> comparable s' t'.
Proof.
  intros I J. unfold comparable. rewrite !Forall_forall. intros [(A & B)|([A|A] & F & G)].
  - left. auto.
  - right. repeat split; auto.
  - right. repeat split; auto.
Qed.
Lemma in_firstn (x : Z) n s : In x (firstn n s) -> In x s.
Proof. intros I. rewrite <- (firstn_skipn n s). apply in_app_iff. now left. Qed.
Lemma sub_in (x : Z) xs pos n : In x (sub xs pos n) -> In x xs.
Proof. unfold sub. intros I. apply in_firstn in I. rewrite <- (firstn_skipn pos xs). apply in_app_iff. now right. Qed.

Lemma lexcmp_cut xs ys : comparable xs ys ->
  match lexcmp (upto_nul (firstn (Nat.min (length xs) (length ys)) xs)) (upto_nul (firstn (Nat.min (length xs) (length ys)) ys)) with
               | Eq => Nat.compare (length xs) (length ys) | Lt => Lt | Gt => Gt end = lexcmp xs ys.
Proof.
  intros C. rewrite lexcmp_upto.
  - symmetry. apply lexcmp_firstn.
  - rewrite !firstn_length. lia.
  - revert C. apply comparable_incl; intros x; apply in_firstn.
Qed.

Lemma reports_eqb r c : reports r c -> (r =? 0) = match c with Eq => true | _ => false end.
Proof. destruct c; cbn; lia. Qed.
Lemma reports_ltb r c : reports r c -> (r <? 0) = match c with Lt => true | _ => false end.
Proof. destruct c; cbn; lia. Qed.
Lemma lexcmp_eq s : forall t, lexcmp s t = Eq <-> s = t.
Proof.
  induction s as [|x s IH]; intros [|y t]; cbn; try (split; congruence).
  destruct (Z.compare_spec x y) as [->|C|C].
  - rewrite IH. split; congruence.
  - split; [discriminate|]. intros E. injection E as -> _. lia.
  - split; [discriminate|]. intros E. injection E as -> _. lia.
Qed.

Section Compare.
  Variables (d : nat) (m m2 : list Z) (b len : nat) (cs : list Z).
  Hypothesis H : text m b len cs.
  Hypothesis D : (depth_bound len <= d)%nat.

  Lemma depth_le a : (a <= len)%nat -> (depth_bound a <= d)%nat.
  Proof. intros A. pose proof (Nat.log2_le_mono a len A). unfold depth_bound in *. lia. Qed.

  Lemma compare_ptr_text pos1 n1 s ys : block m2 s ys -> comparable (sub cs pos1 n1) ys ->
    if (pos1 <=? len)%nat
    then exists r, compare_ptr d m m2 b len pos1 n1 s (length ys) = Ok (Some r) /\ reports r (lexcmp (sub cs pos1 n1) ys)
    else compare_ptr d m m2 b len pos1 n1 s (length ys) = Ok None.
  Proof.
    intros B Z0. pose proof H as (E & _). unfold compare_ptr. destruct (Nat.leb_spec pos1 len) as [C|C].
    2:{ replace (len <? pos1)%nat with true by lia. reflexivity. }
    replace (len <? pos1)%nat with false by lia. cbn [negb].
    assert (B1 : block m (b + pos1) (sub cs pos1 n1)) by (apply block_sub; apply H).
    destruct (compare_impl_lemma d m m2 b pos1 s _ _ B1 B) as (r & R1 & R2).
    { apply depth_le. rewrite sub_length. lia. }
    rewrite lexcmp_cut in R2 by exact Z0.
    rewrite sub_length, <- E in R1. rewrite R1. cbn [bind]. eauto.
  Qed.

  Lemma compare_sub_text pos1 n1 b2 len2 cs2 pos2 n2 : text m2 b2 len2 cs2 -> comparable cs cs2 ->
    if ((pos1 <=? len) && (pos2 <=? len2))%nat
    then exists r, compare_sub d m m2 b len pos1 n1 b2 len2 pos2 n2 = Ok (Some r) /\
                   reports r (lexcmp (sub cs pos1 n1) (sub cs2 pos2 n2))
    else compare_sub d m m2 b len pos1 n1 b2 len2 pos2 n2 = Ok None.
  Proof.
    intros H2 Z0. pose proof H2 as (E2 & _). unfold compare_sub.
    destruct (Nat.leb_spec pos2 len2) as [C|C].
    2:{ replace (len2 <? pos2)%nat with true by lia. now rewrite andb_false_r. }
    replace (len2 <? pos2)%nat with false by lia. cbn [negb]. rewrite andb_true_r.
    pose proof (compare_ptr_text pos1 n1 (b2 + pos2) (sub cs2 pos2 n2)) as T. rewrite sub_length, <- E2 in T. apply T.
    - apply block_sub. apply H2.
    - revert Z0. apply comparable_incl; intros x; apply sub_in.
  Qed.

  Lemma compare_string_text b2 len2 cs2 : text m2 b2 len2 cs2 -> comparable cs cs2 ->
    exists r, compare_string d m m2 b len b2 len2 = Ok (Some r) /\ reports r (lexcmp cs cs2).
  Proof.
    intros H2 Z0. pose proof H as (E & _). pose proof H2 as (E2 & _). unfold compare_string.
    pose proof (compare_ptr_text 0 len b2 cs2) as T. cbn [Nat.leb] in T. rewrite sub_all in T by lia. rewrite E2. apply T.
    - apply H2.
    - exact Z0.
  Qed.
  Lemma compare_cstr_text s ys : cstr m2 s ys -> comparable cs ys -> (depth_bound (length ys) <= d)%nat ->
    exists r, compare_cstr d m m2 b len s = Ok (Some r) /\ reports r (lexcmp cs ys).
  Proof.
    intros C FF D2. pose proof H as (E & _). unfold compare_cstr, traits_length. rewrite (strlen_lemma d m2 s ys C D2). cbn [bind].
    pose proof (compare_ptr_text 0 len s ys) as T. cbn [Nat.leb] in T. rewrite sub_all in T by lia. apply T.
    - apply C.
    - exact FF.
  Qed.

  Lemma string_eq_text b2 len2 cs2 : text m2 b2 len2 cs2 -> comparable cs cs2 ->
    exists e, string_eq d m m2 b len b2 len2 = Ok (Some e) /\ (e = true <-> cs = cs2).
  Proof.
    intros H2 Z0. destruct (compare_string_text b2 len2 cs2 H2 Z0) as (r & E & R).
    unfold string_eq. rewrite E. cbn [bind option_map]. eexists. split; [reflexivity|].
    rewrite (reports_eqb _ _ R). rewrite <- lexcmp_eq. destruct (lexcmp cs cs2); split; congruence.
  Qed.
  Lemma string_lt_text b2 len2 cs2 : text m2 b2 len2 cs2 -> comparable cs cs2 ->
    exists e, string_lt d m m2 b len b2 len2 = Ok (Some e) /\ (e = true <-> lexcmp cs cs2 = Lt).
  Proof.
    intros H2 Z0. destruct (compare_string_text b2 len2 cs2 H2 Z0) as (r & E & R).
    unfold string_lt. rewrite E. cbn [bind option_map]. eexists. split; [reflexivity|].
    rewrite (reports_ltb _ _ R). destruct (lexcmp cs cs2); split; congruence.
  Qed.
End Compare.

Lemma string_eq_nul_text d m m2 b len b2 len2 a s t :
  text m b len (a ++ 0 :: s) -> text m2 b2 len2 (a ++ 0 :: t) -> length s = length t -> ~ In 0 a ->
  (depth_bound len <= d)%nat ->
  string_eq d m m2 b len b2 len2 = Ok (Some true).
Proof.
  intros H H2 Lst Z0 D. pose proof H as (E & _). pose proof H2 as (E2 & _).
  assert (B1 : block m (b + 0) (a ++ 0 :: s)) by (rewrite Nat.add_0_r; apply H).
  assert (B2 : block m2 b2 (a ++ 0 :: t)) by apply H2.
  assert (Le : length (a ++ 0 :: s) = length (a ++ 0 :: t)) by (rewrite !app_length; cbn [length]; lia).
  destruct (compare_impl_lemma d m m2 b 0 b2 _ _ B1 B2) as (r & R1 & R2).
  { rewrite <- Le, Nat.min_id, <- E. exact D. }
  rewrite <- Le in R2. rewrite Nat.min_id in R2. rewrite firstn_all in R2. rewrite Le in R2 at 1. rewrite firstn_all in R2.
  rewrite !upto_nul_app, lexcmp_refl, Nat.compare_refl in R2 by exact Z0. cbn in R2. subst r.
  unfold string_eq, compare_string, compare_ptr. rewrite Nat.sub_0_r, Nat.min_id. cbn [Nat.ltb Nat.leb negb].
  rewrite E, E2. rewrite R1. reflexivity.
Qed.

(** ** Concatenation *)

(** ** The same for strings *)
Lemma holds_text m b N len cs : holds m b N len cs -> text m b len cs.
Proof. intros H. split; [apply H|]. eapply holds_block. eassumption. Qed.
Lemma compare_ptr_lemma : forall d m m2 b N len cs, holds m b N len cs -> (depth_bound len <= d)%nat ->
  forall pos1 n1 s ys, block m2 s ys -> comparable (sub cs pos1 n1) ys ->
  if (pos1 <=? len)%nat
  then exists r, compare_ptr d m m2 b len pos1 n1 s (length ys) = Ok (Some r) /\ reports r (lexcmp (sub cs pos1 n1) ys)
  else compare_ptr d m m2 b len pos1 n1 s (length ys) = Ok None.
Proof. intros; eapply compare_ptr_text; eauto using holds_text. Qed.
Lemma compare_sub_lemma : forall d m m2 b N len cs, holds m b N len cs -> (depth_bound len <= d)%nat ->
  forall pos1 n1 b2 N2 len2 cs2 pos2 n2, holds m2 b2 N2 len2 cs2 -> comparable cs cs2 ->
  if ((pos1 <=? len) && (pos2 <=? len2))%nat%bool
  then exists r, compare_sub d m m2 b len pos1 n1 b2 len2 pos2 n2 = Ok (Some r) /\
                 reports r (lexcmp (sub cs pos1 n1) (sub cs2 pos2 n2))
  else compare_sub d m m2 b len pos1 n1 b2 len2 pos2 n2 = Ok None.
Proof. intros; eapply compare_sub_text; eauto using holds_text. Qed.
Lemma compare_string_lemma : forall d m m2 b N len cs, holds m b N len cs -> (depth_bound len <= d)%nat ->
  forall b2 N2 len2 cs2, holds m2 b2 N2 len2 cs2 -> comparable cs cs2 ->
  exists r, compare_string d m m2 b len b2 len2 = Ok (Some r) /\ reports r (lexcmp cs cs2).
Proof. intros; eapply compare_string_text; eauto using holds_text. Qed.
Lemma compare_cstr_lemma : forall d m m2 b N len cs, holds m b N len cs -> (depth_bound len <= d)%nat ->
  forall s ys, cstr m2 s ys -> comparable cs ys -> (depth_bound (length ys) <= d)%nat ->
  exists r, compare_cstr d m m2 b len s = Ok (Some r) /\ reports r (lexcmp cs ys).
Proof. intros; eapply compare_cstr_text; eauto using holds_text. Qed.
Lemma string_eq_lemma : forall d m m2 b N len cs, holds m b N len cs -> (depth_bound len <= d)%nat ->
  forall b2 N2 len2 cs2, holds m2 b2 N2 len2 cs2 -> comparable cs cs2 ->
  exists e, string_eq d m m2 b len b2 len2 = Ok (Some e) /\ (e = true <-> cs = cs2).
Proof. intros; eapply string_eq_text; eauto using holds_text. Qed.
Lemma string_lt_lemma : forall d m m2 b N len cs, holds m b N len cs -> (depth_bound len <= d)%nat ->
  forall b2 N2 len2 cs2, holds m2 b2 N2 len2 cs2 -> comparable cs cs2 ->
  exists e, string_lt d m m2 b len b2 len2 = Ok (Some e) /\ (e = true <-> lexcmp cs cs2 = Lt).
Proof. intros; eapply string_lt_text; eauto using holds_text. Qed.
Lemma string_eq_nul_lemma : forall d m m2 b N len b2 N2 len2 a s t,
  holds m b N len (a ++ 0 :: s) -> holds m2 b2 N2 len2 (a ++ 0 :: t) -> length s = length t -> ~ In 0 a ->
  (depth_bound len <= d)%nat -> string_eq d m m2 b len b2 len2 = Ok (Some true).
Proof. intros; eapply string_eq_nul_text; eauto using holds_text. Qed.

Lemma raw_construct_lemma N J n arg xs : length xs = n -> (n <= J)%nat -> (J <= N)%nat ->
  (forall i, (i < J)%nat -> exists x, arg i = Ok x /\ ((i < n)%nat -> x = nth i xs 0)) ->
  raw_construct N J n arg = Ok (image N xs, length xs).
Proof.
  intros L NJ JN A. unfold raw_construct.
  pose proof (tab_image (fun i => x <- arg i ;; Ok (if (i <? n)%nat then x else 0)) N J xs ltac:(lia) JN) as T.
  assert (G : forall i, (i < J)%nat -> (x <- arg i ;; Ok (if (i <? n)%nat then x else 0)) = Ok (nth i xs 0)).
  { intros i I. destruct (A i I) as (x & E & X). rewrite E. cbn [bind]. f_equal.
    destruct (Nat.ltb_spec i n); [auto|]. now rewrite nth_overflow by lia. }
  specialize (T G). destruct (tab J _) as [l| |]; cbn [bind] in T |- *; try discriminate T. injection T as ->. now rewrite L.
Qed.

Lemma concat_elem_lemma l1 l2 xs ys i : block l1 0 xs -> block l2 0 ys ->
  concat_elem l1 (length xs) l2 (length ys) i = Ok (nth i (xs ++ ys) 0).
Proof.
  intros B1 B2. unfold concat_elem. destruct (Nat.ltb_spec i (length xs)) as [C|C].
  - rewrite app_nth1 by exact C. apply rd_ok. now apply (block_nth l1 0 xs).
  - rewrite app_nth2 by lia. destruct (Nat.ltb_spec i (length xs + length ys)) as [D|D].
    + apply rd_ok. apply (block_nth l2 0 ys (i - length xs) B2). lia.
    + now rewrite nth_overflow by lia.
Qed.

Lemma concat_lemma N1 N2 l1 l2 xs ys : block l1 0 xs -> block l2 0 ys -> (length xs <= N1)%nat -> (length ys <= N2)%nat ->
  concat N1 N2 l1 (length xs) l2 (length ys) = Ok (image (N1 + N2) (xs ++ ys), (length xs + length ys)%nat).
Proof.
  intros B1 B2 L1 L2. unfold concat. rewrite (raw_construct_lemma _ _ _ _ (xs ++ ys)); rewrite ?app_length; try lia; [reflexivity|].
  intros i I. rewrite concat_elem_lemma by assumption. eauto.
Qed.
Lemma shift_concat_lemma N l1 l2 xs ys : block l1 0 xs -> block l2 0 ys ->
  shift_concat N l1 (length xs) l2 (length ys) = built N (xs ++ ys).
Proof.
  intros B1 B2. unfold shift_concat, built. rewrite app_length. destruct (Nat.leb_spec (length xs + length ys) N); [|reflexivity].
  rewrite (raw_construct_lemma _ _ _ _ (xs ++ ys)); rewrite ?app_length; try lia; [reflexivity|].
  intros i I. rewrite concat_elem_lemma by assumption. eauto.
Qed.

Lemma shrink_lemma N N2 l len cs : holds l 0 N len cs -> shrink N N2 l len = built N2 (firstn N2 cs).
Proof.
  intros H. pose proof H as (E & L & _). unfold shrink, shrink_impl.
  rewrite (raw_construct_lemma _ _ _ _ (firstn N2 cs)).
  - cbn [bind fst snd]. unfold built. rewrite firstn_length. destruct (Nat.ltb_spec N N2) as [C|C].
    + rewrite firstn_all2 by lia. replace (Nat.min N2 (length cs)) with len by lia. replace (Nat.min N N2) with N by lia.
      replace (len <=? N2)%nat with true by lia.
      rewrite (string_widen_lemma N2 N (image N cs) len cs); [|repeat split; try lia; rewrite ?image_length; try lia|lia].
      * unfold built. rewrite <- E. now replace (len <=? N2)%nat with true by lia.
      * intros i x X. exact X.
    + replace (Nat.min N2 (length cs) <=? N2)%nat with true by lia. now replace (Nat.min N N2) with N2 by lia.
  - rewrite firstn_length, E. reflexivity.
  - lia.
  - lia.
  - intros i I. replace (i <? N)%nat with true by lia.
    exists (nth i cs 0). split; [exact (rd_ok _ _ _ (holds_ne l 0 N len cs i H ltac:(lia)))|].
    intros J. now rewrite nth_firstn_lt by lia.
Qed.
