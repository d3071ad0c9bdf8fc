(** Proofs about SvModel.v. *)
From Coq Require Import List Arith ZArith Bool Lia.
From Coq Require Import ZifyBool ZifyNat.
From Verif Require Import Base BaseProof ListFacts SearchSpec OrderSpec OrderProof MutModel MutSpec MutProof MutProof2 BitModel StrModel StrSpec StrProof StrProof2 StrProof3
  CharModel CharSpec CharProof CharProof2 BstrModel BstrSpec BstrProof BstrProof2 BstrProof3 SvModel SvSpec.
Import ListNotations.
Open Scope Z_scope.

Lemma text_ok m p len cs i : text m p len cs -> (i < len)%nat -> nth_error m (p + i) = Some (nth i cs 0).
Proof. intros (E & B) I. apply B. apply ok_nth. lia. Qed.
Lemma text_sub m p len cs pos n : text m p len cs -> (pos + n <= len)%nat -> text m (p + pos) n (sub cs pos n).
Proof. intros (E & B) L. split; [rewrite sub_length; lia|]. now apply block_sub. Qed.

(** ** Access and narrowing *)
Lemma view_cstr_lemma d m s xs : cstr m s xs -> (depth_bound (length xs) <= d)%nat ->
  exists v, view_cstr d m s = Ok v /\ fst v = s /\ shows m v xs.
Proof.
  intros C D. unfold view_cstr, traits_length. rewrite (strlen_lemma d m s xs C D). cbn [bind]. eexists.
  split; [reflexivity|]. split; [reflexivity|]. split; [reflexivity|apply C].
Qed.
Lemma view_at_lemma m v cs i : shows m v cs -> view_at m v i = Ok (nth_error cs i).
Proof.
  intros H. pose proof H as (E & _). unfold view_at, size. destruct (Nat.ltb_spec i (snd v)) as [C|C].
  - rewrite (rd_ok _ _ _ (text_ok _ _ _ _ _ H C)). cbn [bind]. f_equal. symmetry. apply ok_nth. lia.
  - f_equal. symmetry. apply nth_error_None. lia.
Qed.
Lemma front_lemma m v x t : shows m v (x :: t) -> front m v = Ok x.
Proof. intros H. pose proof H as (E & _). unfold front. rewrite (rd_ok _ _ _ (text_ok _ _ _ _ 0 H ltac:(rewrite E; cbn; lia))). reflexivity. Qed.
Lemma back_lemma m v x t : shows m v (t ++ [x]) -> back m v = Ok x.
Proof.
  intros H. pose proof H as (E & _). rewrite app_length in E. cbn in E. unfold back, size.
  replace (snd v =? 0)%nat with false by lia.
  rewrite (rd_ok _ _ _ (text_ok _ _ _ _ (snd v - 1) H ltac:(lia))). f_equal.
  rewrite app_nth2 by lia. now replace (snd v - 1 - length t)%nat with 0%nat by lia.
Qed.
Lemma remove_prefix_lemma m v cs n : shows m v cs ->
  shows m (remove_prefix v n) (skipn n cs) /\ fst (remove_prefix v n) = (fst v + Nat.min n (length cs))%nat /\
  remove_prefix_mut v n = remove_prefix v n.
Proof.
  intros H. pose proof H as (E & B). unfold remove_prefix, remove_prefix_mut, view_of, size. repeat split.
  - destruct (Nat.ltb_spec (snd v) n); cbn [snd]; rewrite skipn_length; lia.
  - destruct (Nat.ltb_spec (snd v) n) as [C|C]; cbn [fst].
    + rewrite skipn_all2 by lia. intros i x X. destruct i; discriminate.
    + intros i x X. rewrite ne_skipn in X. rewrite <- Nat.add_assoc. now apply B.
  - destruct (Nat.ltb_spec (snd v) n); cbn [fst]; lia.
  - destruct (Nat.ltb_spec (snd v) n); f_equal; lia.
Qed.
Lemma remove_suffix_lemma m v cs n : shows m v cs ->
  shows m (remove_suffix v n) (firstn (length cs - n) cs) /\ fst (remove_suffix v n) = fst v /\
  remove_suffix_mut v n = remove_suffix v n.
Proof.
  intros H. pose proof H as (E & B). unfold remove_suffix, remove_suffix_mut, view_of, size. repeat split.
  - destruct (Nat.ltb_spec (snd v) n); cbn [snd]; rewrite firstn_length; lia.
  - pose proof (block_sub m (fst v) cs 0 (length cs - n) B) as S. rewrite Nat.add_0_r in S.
    destruct (snd v <? n)%nat; exact S.
  - destruct (Nat.ltb_spec (snd v) n); reflexivity.
  - destruct (Nat.ltb_spec (snd v) n); f_equal; lia.
Qed.

(** ** substr, copy *)
Lemma view_substr_lemma r M m v cs pos n : shows m v cs -> (size v < M - 1)%nat -> (1 < r)%nat ->
  (n <= length cs - pos)%nat \/ n = (M - 1)%nat ->
  if (pos <=? length cs)%nat
  then exists w, view_substr r M v pos n = Ok (Some w) /\ fst w = (fst v + pos)%nat /\ shows m w (sub cs pos n)
  else view_substr r M v pos n = Ok None.
Proof.
  intros H L R Hn. pose proof H as (E & B). destruct r as [|[|r]]; try lia. unfold size in *. cbn [view_substr]. unfold size, npos, view_of.
  destruct (Nat.leb_spec pos (length cs)) as [C|C].
  2:{ replace (snd v <? pos)%nat with true by lia. reflexivity. }
  replace (snd v <? pos)%nat with false by lia. cbn [negb].
  destruct (Nat.eqb_spec n (M - 1)) as [Q|Q].
  - replace (snd v - pos =? M - 1)%nat with false by lia. eexists. split; [reflexivity|]. split; [reflexivity|].
    split; cbn [fst snd]; [rewrite sub_length; lia|]. now apply block_sub.
  - eexists. split; [reflexivity|]. split; [reflexivity|].
    split; cbn [fst snd]; [rewrite sub_length; lia|]. now apply block_sub.
Qed.
Lemma view_substr_over_lemma r M m v cs pos n : shows m v cs -> (0 < r)%nat -> (pos <= length cs)%nat ->
  (length cs - pos < n < M - 1)%nat ->
  exists w, view_substr r M v pos n = Ok (Some w) /\ size w = n /\ (length (sub cs pos n) < size w)%nat.
Proof.
  intros H R P N. pose proof H as (E & _). destruct r as [|r]; [lia|]. cbn [view_substr]. unfold size, npos, view_of.
  replace (snd v <? pos)%nat with false by lia. replace (n =? M - 1)%nat with false by lia. cbn [negb].
  eexists. split; [reflexivity|]. cbn [snd]. split; [reflexivity|]. rewrite sub_length. lia.
Qed.
Lemma view_copy_lemma k m v cs s n pos : shows m v cs -> (pos < length cs)%nat ->
  (s + Nat.min n (length cs - pos) <= length m)%nat -> (length cs < k)%nat ->
  (s + Nat.min n (length cs - pos) <= fst v \/ fst v + size v <= s)%nat ->
  view_copy k m v s n pos = Ok (paste m s (sub cs pos n), Some (length (sub cs pos n))).
Proof.
  intros H P Q K A. pose proof H as (E & B). unfold size in *. unfold view_copy, size, copy_out, rangecheck.
  assert (Lm : (fst v + snd v <= length m)%nat).
  { pose proof (text_ok _ _ _ _ (snd v - 1) H ltac:(lia)) as X.
    assert (fst v + (snd v - 1) < length m)%nat by (apply nth_error_Some; congruence). lia. }
  replace (snd v <=? pos)%nat with false by lia. unfold traits_copy.
  rewrite copy_correct_lemma; unfold valid, forward_safe; try lia. cbn [bind fst].
  assert (S : slice m (fst v + pos) (fst v + pos + Nat.min n (snd v - pos)) = sub cs pos n).
  { pose proof (block_slice m (fst v + pos) (sub cs pos n)) as T. rewrite sub_length, <- E in T. apply T; [|lia].
    now apply block_sub. }
  rewrite S, sub_length, <- E. reflexivity.
Qed.
Lemma view_copy_end_lemma k m v cs s n : shows m v cs -> view_copy k m v s n (length cs) = Ok (m, None).
Proof. intros (E & _). unfold view_copy, size, copy_out, rangecheck. now rewrite E, Nat.leb_refl. Qed.

(** ** Comparison *)
Section Compare.
  Variables (d : nat) (m m2 : list Z) (v : sview) (cs : list Z).
  Hypothesis H : shows m v cs.
  Hypothesis D : (depth_bound (length cs) <= d)%nat.
  Let D' : (depth_bound (snd v) <= d)%nat.
  Proof. pose proof H as (E & _). now rewrite E. Qed.

  Lemma view_compare_ptr_lemma pos1 n1 s ys : block m2 s ys -> comparable (sub cs pos1 n1) ys ->
    if (pos1 <=? length cs)%nat
    then exists r, view_compare_ptr d m m2 v pos1 n1 s (length ys) = Ok (Some r) /\ reports r (lexcmp (sub cs pos1 n1) ys)
    else view_compare_ptr d m m2 v pos1 n1 s (length ys) = Ok None.
  Proof. intros B C. pose proof (compare_ptr_text d m m2 _ _ cs H D' pos1 n1 s ys B C) as T. pose proof H as (E & _). rewrite <- E. exact T. Qed.
  Lemma view_compare_sub_lemma pos1 n1 w cs2 pos2 n2 : shows m2 w cs2 -> comparable cs cs2 ->
    if ((pos1 <=? length cs) && (pos2 <=? length cs2))%nat
    then exists r, view_compare_sub d m m2 v pos1 n1 w pos2 n2 = Ok (Some r) /\
                   reports r (lexcmp (sub cs pos1 n1) (sub cs2 pos2 n2))
    else view_compare_sub d m m2 v pos1 n1 w pos2 n2 = Ok None.
  Proof.
    intros H2 C. pose proof (compare_sub_text d m m2 _ _ cs H D' pos1 n1 _ _ cs2 pos2 n2 H2 C) as T.
    pose proof H as (E & _). pose proof H2 as (E2 & _). rewrite <- E, <- E2. exact T.
  Qed.
  Lemma view_compare_part_lemma M pos1 n1 w cs2 : shows m2 w cs2 -> comparable cs cs2 -> (length cs2 < M)%nat ->
    if (pos1 <=? length cs)%nat
    then exists r, view_compare_part d M m m2 v pos1 n1 w = Ok (Some r) /\ reports r (lexcmp (sub cs pos1 n1) cs2)
    else view_compare_part d M m m2 v pos1 n1 w = Ok None.
  Proof.
    intros H2 C L. pose proof (view_compare_sub_lemma pos1 n1 w cs2 0 (npos M) H2 C) as T. cbn [Nat.leb] in T.
    rewrite andb_true_r in T. rewrite (sub_all cs2 (npos M)) in T by (unfold npos; lia). exact T.
  Qed.
  Lemma view_compare_lemma w cs2 : shows m2 w cs2 -> comparable cs cs2 ->
    exists r, view_compare d m m2 v w = Ok (Some r) /\ reports r (lexcmp cs cs2).
  Proof. intros H2 C. exact (compare_string_text d m m2 _ _ cs H D' _ _ cs2 H2 C). Qed.
  Lemma view_compare_cstr_lemma s ys : cstr m2 s ys -> comparable cs ys -> (depth_bound (length ys) <= d)%nat ->
    exists r, view_compare_cstr d m m2 v s = Ok (Some r) /\ reports r (lexcmp cs ys).
  Proof. intros C X D2. exact (compare_cstr_text d m m2 _ _ cs H D' s ys C X D2). Qed.
End Compare.

Lemma lexcmp_flip s : forall t, lexcmp t s = CompOpp (lexcmp s t).
Proof.
  induction s as [|x s IH]; intros [|y t]; cbn [lexcmp CompOpp]; try reflexivity.
  rewrite Z.compare_antisym. destruct (x ?= y); cbn [CompOpp]; auto.
Qed.
Lemma reports_gtb r c : reports r c -> (0 <? r) = match c with Gt => true | _ => false end.
Proof. destruct c; cbn; lia. Qed.
Lemma comparable_sym s t : comparable s t -> comparable t s.
Proof. unfold comparable. tauto. Qed.

Lemma view_ops_lemma d m m2 v w cs cs2 : shows m v cs -> shows m2 w cs2 -> comparable cs cs2 ->
  (depth_bound (length cs) <= d)%nat -> (depth_bound (length cs2) <= d)%nat ->
  answers (view_eq d m m2 v w) (cs = cs2) /\ answers (view_ne d m m2 v w) (cs <> cs2) /\
  answers (view_lt d m m2 v w) (lexcmp cs cs2 = Lt) /\ answers (view_gt d m m2 v w) (lexcmp cs cs2 = Gt) /\
  answers (view_le d m m2 v w) (lexcmp cs cs2 <> Gt) /\ answers (view_ge d m m2 v w) (lexcmp cs cs2 <> Lt).
Proof.
  intros H H2 C D D2. destruct (view_compare_lemma d m m2 v cs H D w cs2 H2 C) as (r & E & R).
  destruct (view_compare_lemma d m2 m w cs2 H2 D2 v cs H (comparable_sym _ _ C)) as (r2 & E2 & R2).
  rewrite (lexcmp_flip cs cs2) in R2. pose proof (lexcmp_eq cs cs2) as Q.
  unfold view_eq, view_ne, view_gt, view_le, view_ge, view_lt, view_eq, cmp_result. rewrite E, E2. cbn [bind option_map].
  rewrite (reports_eqb _ _ R), (reports_ltb _ _ R), (reports_ltb _ _ R2).
  repeat apply conj; eexists; (split; [reflexivity|]); destruct (lexcmp cs cs2); cbn [CompOpp negb]; split; intros; try congruence;
    try (apply Q; congruence); try (intros X; apply Q in X; congruence); try (exfalso; tauto).
  all: try (apply Q in H0; congruence).
Qed.
Lemma view_cstr_ops_lemma d m m2 v s cs ys : shows m v cs -> cstr m2 s ys -> comparable cs ys ->
  (depth_bound (length cs) <= d)%nat -> (depth_bound (length ys) <= d)%nat ->
  answers (view_eq_cstr d m m2 v s) (cs = ys) /\
  answers (view_lt_cstr d m m2 v s) (lexcmp cs ys = Lt) /\ answers (view_gt_cstr d m m2 v s) (lexcmp cs ys = Gt) /\
  answers (view_le_cstr d m m2 v s) (lexcmp cs ys <> Gt) /\ answers (view_ge_cstr d m m2 v s) (lexcmp cs ys <> Lt).
Proof.
  intros H H2 C D D2. destruct (view_compare_cstr_lemma d m m2 v cs H D s ys H2 C D2) as (r & E & R).
  pose proof (lexcmp_eq cs ys) as Q.
  unfold view_eq_cstr, view_le_cstr, view_ge_cstr, view_gt_cstr, view_lt_cstr, cmp_result. rewrite E. cbn [bind option_map].
  rewrite (reports_eqb _ _ R), (reports_ltb _ _ R), (reports_gtb _ _ R).
  repeat apply conj; eexists; (split; [reflexivity|]); destruct (lexcmp cs ys); cbn [negb]; split; intros; try congruence;
    try (apply Q; congruence); try (apply Q in H0; congruence).
Qed.
Lemma view_eq_nul_lemma d m m2 v w a s t : shows m v (a ++ 0 :: s) -> shows m2 w (a ++ 0 :: t) -> length s = length t -> ~ In 0 a ->
  (depth_bound (length (a ++ 0%Z :: s)) <= d)%nat -> view_eq d m m2 v w = Ok (Some true).
Proof. intros H H2 L Z0 D. refine (string_eq_nul_text d m m2 _ _ _ _ a s t H H2 L Z0 _). pose proof H as (E & _). now rewrite E. Qed.

(** ** Searches *)
Lemma view_find_lemma d m ms v w cs ys : shows m v cs -> shows ms w ys -> ~ In 0 ys -> (depth_bound (length ys) <= d)%nat ->
  forall r pos, (length cs < r)%nat ->
  (exists o, view_find r d m ms v w pos = Ok o /\ first_from (occurs cs ys) pos o) /\
  (exists o, view_rfind r d m ms v w pos = Ok o /\ last_upto (occurs cs ys) pos o).
Proof.
  intros H H2 Z0 D r pos R. pose proof H as (E & _). pose proof H2 as (E2 & B2). unfold view_find, view_rfind, view_find_n, view_rfind_n, size.
  rewrite E2. rewrite <- E in R. split.
  - exact (find_string_text d m ms _ _ _ cs ys H B2 Z0 D r pos R).
  - exact (rfind_string_text d m ms _ _ _ cs ys H B2 Z0 D r pos R).
Qed.
Lemma view_find_cstr_lemma d m ms v s cs ys : shows m v cs -> cstr ms s ys -> (depth_bound (length ys) <= d)%nat ->
  forall r pos, (length cs < r)%nat ->
  (exists o, view_find_cstr r d m ms v s pos = Ok o /\ first_from (occurs cs ys) pos o) /\
  (exists o, view_rfind_cstr r d m ms v s pos = Ok o /\ last_upto (occurs cs ys) pos o).
Proof.
  intros H C D r pos R. pose proof H as (E & _). unfold view_find_cstr, view_rfind_cstr, traits_length.
  rewrite (strlen_lemma d ms s ys C D). cbn [bind]. destruct C as (B2 & _ & Z0). rewrite <- E in R. split.
  - exact (find_string_text d m ms _ _ _ cs ys H B2 Z0 D r pos R).
  - exact (rfind_string_text d m ms _ _ _ cs ys H B2 Z0 D r pos R).
Qed.
Lemma view_rfind_nul_lemma r d m ms v w cs ys zs : shows m v cs -> shows ms w ys -> ys = 0 :: zs ->
  (depth_bound (length ys) <= d)%nat -> (0 < r)%nat -> (length ys <= length cs)%nat -> nth_error cs (length cs - length ys) = Some 0 ->
  view_rfind r d m ms v w (length cs) = Ok (Some (length cs - length ys)%nat).
Proof.
  intros H H2 Y D R L X. pose proof H as (E & _). pose proof H2 as (E2 & B2). unfold view_rfind, view_rfind_n, size. rewrite E2.
  rewrite <- E in *. exact (rfind_nul_text r d m ms _ _ _ cs ys zs H B2 Y D R L X).
Qed.
Lemma view_find_c_lemma m v cs : shows m v cs -> forall r d c pos, (depth_bound (length cs) <= d)%nat -> (length cs < r)%nat ->
  (exists o, view_find_c d m v c pos = Ok o /\ first_from (char_at (eq c) cs) pos o) /\
  (exists o, view_rfind_c r m v c pos = Ok o /\ last_upto (char_at (eq c) cs) pos o).
Proof.
  intros H r d c pos D R. pose proof H as (E & _). rewrite <- E in *. split.
  - exact (find_c_text m _ _ cs H d c pos D).
  - exact (rfind_c_text m _ _ cs H r c pos R).
Qed.
Lemma view_find_of_lemma m ms v w cs xs : shows m v cs -> shows ms w xs -> forall r d pos, (depth_bound (length xs) <= d)%nat -> (length cs < r)%nat ->
  (exists o, view_find_first_of r d m ms v w pos = Ok o /\ first_from (char_at (fun x => In x xs) cs) pos o) /\
  (exists o, view_find_last_of r d m ms v w pos = Ok o /\ last_upto (char_at (fun x => In x xs) cs) pos o) /\
  (exists o, view_find_first_not_of r d m ms v w pos = Ok o /\ first_from (char_at (fun x => ~ In x xs) cs) pos o) /\
  (exists o, view_find_last_not_of r d m ms v w pos = Ok o /\ last_upto (char_at (fun x => ~ In x xs) cs) pos o).
Proof.
  intros H H2 r d pos D R. pose proof H as (E & _). pose proof H2 as (E2 & B2). rewrite <- E in R.
  unfold view_find_first_of, view_find_last_of, view_find_first_not_of, view_find_last_not_of, size. rewrite E2.
  repeat apply conj.
  - exact (find_first_of_text m _ _ cs H d ms _ xs B2 D r pos R).
  - exact (find_last_of_text m _ _ cs H d ms _ xs B2 D r pos R).
  - exact (find_first_not_of_text m _ _ cs H d ms _ xs B2 D r pos R).
  - exact (find_last_not_of_text m _ _ cs H d ms _ xs B2 D r pos R).
Qed.
Lemma view_find_of_c_lemma m v cs : shows m v cs -> forall r d c pos, (depth_bound (length cs) <= d)%nat -> (length cs < r)%nat ->
  (exists o, view_find_first_of_c d m v c pos = Ok o /\ first_from (char_at (eq c) cs) pos o) /\
  (exists o, view_find_last_of_c r m v c pos = Ok o /\ last_upto (char_at (eq c) cs) pos o) /\
  (exists o, view_find_first_not_of_c r m v c pos = Ok o /\ first_from (char_at (fun x => x <> c) cs) pos o) /\
  (exists o, view_find_last_not_of_c r m v c pos = Ok o /\ last_upto (char_at (fun x => x <> c) cs) pos o).
Proof.
  intros H r d c pos D R. pose proof H as (E & _). rewrite <- E in *. repeat apply conj.
  - exact (find_c_text m _ _ cs H d c pos D).
  - exact (rfind_c_text m _ _ cs H r c pos R).
  - exact (find_first_not_of_c_text m _ _ cs H r c pos R).
  - exact (find_last_not_of_c_text m _ _ cs H r c pos R).
Qed.

(** ** Prefixes and suffixes *)
Lemma starts_with_c_lemma m v cs c : shows m v cs -> exists b, starts_with_c m v c = Ok b /\ (b = true <-> is_prefix cs [c]).
Proof.
  intros H. pose proof H as (E & _). unfold starts_with_c, empty, size. destruct cs as [|x t].
  - replace (snd v =? 0)%nat with true by (cbn in E; lia). exists false. split; [reflexivity|].
    split; [discriminate|]. intros (b & B). discriminate.
  - replace (snd v =? 0)%nat with false by (cbn in E; lia). cbn [negb]. rewrite (front_lemma m v x t H). cbn [bind].
    eexists. split; [reflexivity|]. rewrite Z.eqb_eq. split.
    + intros ->. now exists t.
    + intros (b & B). cbn in B. congruence.
Qed.
Lemma ends_with_c_lemma m v cs c : shows m v cs -> exists b, ends_with_c m v c = Ok b /\ (b = true <-> is_suffix cs [c]).
Proof.
  intros H. pose proof H as (E & _). unfold ends_with_c, empty, size. destruct cs as [|x t] using rev_ind.
  - replace (snd v =? 0)%nat with true by (cbn in E; lia). exists false. split; [reflexivity|].
    split; [discriminate|]. intros (b & B). destruct b; discriminate.
  - rewrite app_length in E. cbn in E. replace (snd v =? 0)%nat with false by lia. cbn [negb]. rewrite (back_lemma m v x t H). cbn [bind].
    eexists. split; [reflexivity|]. rewrite Z.eqb_eq. split.
    + intros ->. now exists t.
    + intros (b & B). apply app_inj_tail in B. destruct B. congruence.
Qed.
Lemma starts_with_lemma d m m2 v w cs ys : shows m v cs -> shows m2 w ys -> ~ In 0 ys -> (depth_bound (length ys) <= d)%nat ->
  exists b, starts_with d m m2 v w = Ok b /\ (b = true <-> is_prefix cs ys).
Proof.
  intros H H2 Z0 D. pose proof H as (E & B). pose proof H2 as (E2 & B2). unfold starts_with, size.
  destruct (Nat.leb_spec (snd w) (snd v)) as [C|C].
  2:{ exists false. split; [reflexivity|]. split; [discriminate|]. intros (b & Q). rewrite Q, app_length in E. lia. }
  rewrite E2. destruct (strncmp_occurs d m m2 (fst v) (fst w) (sub cs 0 (length ys)) ys) as (r & R1 & R2); try assumption.
  - rewrite <- (Nat.add_0_r (fst v)). now apply block_sub.
  - rewrite sub_length. lia.
  - rewrite R1. cbn [bind]. eexists. split; [reflexivity|]. rewrite R2. unfold sub. cbn [skipn]. split.
    + intros Q. exists (skipn (length ys) cs). rewrite <- Q at 1. symmetry. apply firstn_skipn.
    + intros (b & ->). now rewrite firstn_app, firstn_all, Nat.sub_diag, firstn_O, app_nil_r.
Qed.
Lemma ends_with_lemma d m m2 v w cs ys : shows m v cs -> shows m2 w ys -> ~ In 0 ys -> (depth_bound (length ys) <= d)%nat ->
  exists b, ends_with d m m2 v w = Ok b /\ (b = true <-> is_suffix cs ys).
Proof.
  intros H H2 Z0 D. pose proof H as (E & B). pose proof H2 as (E2 & B2). unfold ends_with, size.
  destruct (Nat.leb_spec (snd w) (snd v)) as [C|C].
  2:{ exists false. split; [reflexivity|]. split; [discriminate|]. intros (b & Q). rewrite Q, app_length in E. lia. }
  replace (fst v + snd v - snd w)%nat with (fst v + (length cs - length ys))%nat by lia.
  rewrite E2. destruct (strncmp_occurs d m m2 (fst v + (length cs - length ys)) (fst w) (sub cs (length cs - length ys) (length ys)) ys) as (r & R1 & R2); try assumption.
  - now apply block_sub.
  - rewrite sub_length. lia.
  - rewrite R1. cbn [bind]. eexists. split; [reflexivity|]. rewrite R2. unfold sub.
    rewrite firstn_all2 by (rewrite skipn_length; lia). split.
    + intros Q. exists (firstn (length cs - length ys) cs). rewrite <- Q at 2. symmetry. apply firstn_skipn.
    + intros (b & ->). rewrite app_length. replace (length b + length ys - length ys)%nat with (length b) by lia.
      now rewrite skipn_app, skipn_all, Nat.sub_diag.
Qed.
Lemma starts_with_nul_lemma d m m2 v w a s t : shows m v (a ++ 0 :: s) -> shows m2 w (a ++ 0 :: t) -> (length t <= length s)%nat -> ~ In 0 a ->
  (depth_bound (length (a ++ 0%Z :: t)) <= d)%nat -> starts_with d m m2 v w = Ok true.
Proof.
  intros H H2 L Z0 D. pose proof H as (E & B). pose proof H2 as (E2 & B2). unfold starts_with, size.
  pose proof E as E'. pose proof E2 as E2'. rewrite app_length in E', E2'. cbn [length] in E', E2'.
  replace (snd w <=? snd v)%nat with true by lia. rewrite E2. unfold traits_compare.
  pose proof (upto_cstr_n m2 (fst w) _ B2) as C2.
  assert (B1 : block m (fst v) (sub (a ++ 0 :: s) 0 (length (a ++ 0 :: t)))) by (rewrite <- (Nat.add_0_r (fst v)); now apply block_sub).
  pose proof (upto_cstr_n m (fst v) _ B1) as C1. rewrite sub_length in C1.
  replace (Nat.min (length (a ++ 0 :: t)) (length (a ++ 0 :: s) - 0)) with (length (a ++ 0 :: t)) in C1 by (rewrite !app_length; cbn [length]; lia).
  destruct (strncmp_lemma d m m2 (fst v) (fst w) _ _ _ C1 C2 D) as (x & Ex & Rx).
  assert (U : upto_nul (sub (a ++ 0 :: s) 0 (length (a ++ 0 :: t))) = a).
  { unfold sub. cbn [skipn]. rewrite firstn_app. rewrite firstn_all2 by (rewrite app_length; lia).
    rewrite app_length. cbn [length]. replace (length a + S (length t) - length a)%nat with (S (length t)) by lia. cbn [firstn].
    now apply upto_nul_app. }
  rewrite U, upto_nul_app, lexcmp_refl in Rx by exact Z0. cbn in Rx. subst x. rewrite Ex. reflexivity.
Qed.

(** ** Conversions *)
Lemma to_string_lemma d N m v xs : cstr m (fst v) xs -> (depth_bound (length xs) <= d)%nat ->
  to_string d N m v = built N (firstn (size v) xs).
Proof. intros C D. unfold to_string. apply (string_cstr_lemma d N m (fst v) xs C D). Qed.
Lemma to_string_plain_lemma d N m v cs rest : shows m v cs -> cstr m (fst v) (cs ++ rest) -> (depth_bound (length (cs ++ rest)) <= d)%nat ->
  to_string d N m v = built N cs.
Proof.
  intros H C D. pose proof H as (E & _). rewrite (to_string_lemma d N m v _ C D). unfold size. rewrite E.
  now rewrite firstn_app, firstn_all, Nat.sub_diag, firstn_O, app_nil_r.
Qed.
Lemma to_string_nul_lemma d N m v a s : shows m v (a ++ 0 :: s) -> ~ In 0 a -> (depth_bound (length a) <= d)%nat ->
  to_string d N m v = built N a.
Proof.
  intros H Z0 D. pose proof H as (E & B). rewrite app_length in E. cbn in E. rewrite (to_string_lemma d N m v a); [|split; [|split]|exact D].
  - unfold size. rewrite firstn_all2 by lia. reflexivity.
  - intros i x X. apply B. rewrite nth_error_app1; [exact X|]. apply nth_error_Some. congruence.
  - apply B. rewrite nth_error_app2 by lia. now rewrite Nat.sub_diag.
  - exact Z0.
Qed.

(** strlen finds a terminator or nothing *)
Lemma strlen_ok d m s n : strlen d m s = Ok n -> nth_error m (s + n) = Some 0.
Proof.
  unfold strlen. set (halt := fun '((p, n) : nat * nat) => b <- nul m p ;; Ok (if b : bool then Some (p, n) else None)).
  set (step := fun '((p, n) : nat * nat) => Ok (S p, (n + 1)%nat)).
  assert (H0 : forall p n x, halt (p, n) = Ok (Some x) -> x = (p, n) /\ nth_error m p = Some 0).
  { intros p q x. unfold halt, nul, rd. destruct (nth_error m p) as [c|]; cbn [bind]; [|discriminate].
    destruct (Z.eqb_spec c 0) as [->|_]; [|discriminate]. intros [= <-]. auto. }
  assert (H1 : forall d k p n p' n', dbl_1 halt step d (p, n) k = Ok (p', n') -> (p' + n = p + n')%nat).
  { induction d0 as [|d0 IH]; intros k p q p' q'; cbn [dbl_1]; [discriminate|].
    destruct (halt (p, q)) as [[x|]| |] eqn:E; cbn [bind]; try discriminate.
    - intros [= ->]. apply H0 in E. destruct E as ([= -> ->] & _). lia.
    - destruct (k =? 1)%nat; [cbn [step]; intros [= <- <-]; lia|].
      destruct (dbl_1 halt step d0 (p, q) (k / 2)) as [[p1 q1]| |] eqn:E1; cbn [bind]; try discriminate.
      intros E2. apply IH in E1. apply IH in E2. lia. }
  assert (H2 : forall d k p n p' n', dbl halt step d (p, n) k = Ok (p', n') -> (p' + n = p + n')%nat /\ nth_error m p' = Some 0).
  { induction d0 as [|d0 IH]; intros k p q p' q'; cbn [dbl]; [discriminate|].
    destruct (halt (p, q)) as [[x|]| |] eqn:E; cbn [bind]; try discriminate.
    - intros [= ->]. apply H0 in E. destruct E as ([= -> ->] & E). split; [lia|exact E].
    - destruct (dbl_1 halt step d0 (p, q) k) as [[p1 q1]| |] eqn:E1; cbn [bind]; try discriminate.
      intros E2. apply H1 in E1. apply IH in E2. destruct E2 as (E2 & E3). split; [lia|exact E3]. }
  destruct (dbl halt step d (s, 0%nat) 1) as [[p q]| |] eqn:E; cbn [bind snd]; try discriminate.
  intros [= <-]. apply H2 in E. destruct E as (E & X). replace (s + q)%nat with p by lia. exact X.
Qed.
Lemma to_string_open_lemma d N m v : (forall i, nth_error m (fst v + i) <> Some 0) -> forall r, to_string d N m v <> Ok r.
Proof.
  intros X r. unfold to_string, string_cstr_n, traits_length. destruct (strlen d m (fst v)) as [n| |] eqn:E; cbn [bind]; try discriminate.
  apply strlen_ok in E. destruct (X _ E).
Qed.

Lemma view_to_int_lemma il t base m v cs rest r : sgn t = true -> base_ok base -> shows m v cs -> Forall character (cs ++ rest) ->
  cstr m (fst v) (cs ++ rest) -> (length (cs ++ rest) + 1 < r)%nat ->
  base = 0 \/ base = 16 \/ zero_x (tail_of (cs ++ rest)) = false -> denotes base (cs ++ rest) <> (true, tmax t) ->
  view_to_int il t r m v base = Ok (c_strtol t base (cs ++ rest)).
Proof. intros S Bo _ F C R X Y. unfold view_to_int. now apply str_to_int_signed_lemma. Qed.
Lemma view_to_int_over_lemma : exists m v, shows m v [49; 50] /\ view_to_int 2 (Ity true 2) 9 m v 10 = Ok 123 /\
  c_strtol (Ity true 2) 10 [49; 50] = 12.
Proof.
  exists [49; 50; 51; 0], (0, 2)%nat. repeat split. intros i x. cbn [fst].
  do 2 (destruct i as [|i]; [cbn; congruence|]). destruct i; discriminate.
Qed.

Lemma view_swap_lemma : forall m v w cs ds, shows m v cs -> shows m w ds ->
  shows m (fst (view_swap v w)) ds /\ shows m (snd (view_swap v w)) cs /\
  fst (fst (view_swap v w)) = fst w /\ fst (snd (view_swap v w)) = fst v.
Proof. intros m [a b] [c d] cs ds H1 H2. cbn [view_swap fst snd]. exact (conj H2 (conj H1 (conj eq_refl eq_refl))). Qed.
