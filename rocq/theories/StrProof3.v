(** Proofs about StrModel.v: memcmp and the functions that write. *)
From Coq Require Import List Arith ZArith Bool Lia.
From Coq Require Import ZifyBool ZifyNat.
From Verif Require Import Base BaseProof BitModel BitSpec BitProof ShaModel SearchModel SearchSpec SearchProof OrderModel OrderSpec
  OrderProof OrderProof4 MutModel MutSpec MutProof MutProof2 StrModel StrSpec StrProof StrProof2.
Import ListNotations.
Open Scope Z_scope.

(** ** memcmp *)
Lemma block_nth m p s i : block m p s -> (i < length s)%nat -> nth_error m (p + i) = Some (nth i s 0).
Proof. intros H Hi. apply H, ok_nth, Hi. Qed.

Lemma block_bound m p s : block m p s -> (p + length s <= length m)%nat \/ s = [].
Proof.
  intros H. destruct s as [|x s]; [now right|left].
  pose proof (block_nth m p (x :: s) (length s) H ltac:(cbn; lia)) as E. apply nth_error_lt in E. cbn. lia.
Qed.

Lemma rel_block m1 m2 p1 p2 s t i : block m1 p1 s -> block m2 p2 t -> (i < length s)%nat -> (i < length t)%nat ->
  (rel Z.ltb m1 (p1 + i) m2 (p2 + i) <-> nth i s 0 < nth i t 0).
Proof.
  intros Hs Ht Hi Hj. unfold rel. rewrite (block_nth m1 p1 s), (block_nth m2 p2 t) by assumption. split.
  - intros (x & y & [= <-] & [= <-] & H). lia.
  - intros H. do 2 eexists. repeat split. lia.
Qed.

Lemma same_block m1 m2 p1 p2 s t i : block m1 p1 s -> block m2 p2 t -> (i < length s)%nat -> (i < length t)%nat ->
  (same Z.ltb Z.ltb m1 (p1 + i) m2 (p2 + i) <-> nth i s 0 = nth i t 0).
Proof.
  intros Hs Ht Hi Hj. unfold same. rewrite (rel_block m1 m2 p1 p2 s t), (rel_block m2 m1 p2 p1 t s) by assumption. lia.
Qed.

Lemma memcmp_lemma d m1 m2 p1 p2 s t n : block m1 p1 s -> block m2 p2 t -> length s = n -> length t = n ->
  (p1 <= length m1)%nat -> (p2 <= length m2)%nat -> (depth_bound n <= d)%nat ->
  exists r, memcmp d m1 m2 p1 p2 n = Ok r /\ reports r (lexcmp s t).
Proof.
  intros Hs Ht Es Et B1 B2 Hd. unfold memcmp.
  assert (V1 : valid m1 p1 (p1 + n)).
  { split; [lia|]. destruct (block_bound _ _ _ Hs) as [|E]; [lia|subst s; cbn in Es; lia]. }
  assert (V2 : valid m2 p2 (p2 + n)).
  { split; [lia|]. destruct (block_bound _ _ _ Ht) as [|E]; [lia|subst t; cbn in Et; lia]. }
  destruct (tristate_correct_lemma Z.ltb Z.ltb true d m1 m2 p1 (p1 + n) p2 (p2 + n) V1 V2) as (z & E & HL & HE & HG).
  { now replace (p1 + n - p1)%nat with n by lia. }
  { intros x y. lia. }
  exists z. split; [exact E|].
  destruct (lcp_spec s t) as (H1 & H2 & H3 & H4 & Hl). rewrite Hl. clear Hl. set (h := lcp s t) in *.
  destruct (Nat.eq_dec h n) as [Eh|Eh].
  - rewrite !skipn_all2 by lia. cbn. apply HE. split; [lia|]. intros j Hj.
    apply (same_block m1 m2 p1 p2 s t); try assumption; try lia. apply H3. lia.
  - rewrite (skipn_cons s), (skipn_cons t) by lia. cbn [lexcmp]. specialize (H4 ltac:(lia) ltac:(lia)).
    destruct (Z.compare_spec (nth h s 0) (nth h t 0)) as [C|C|C]; [lia| |]; cbn [reports].
    + apply HL. exists h. repeat split; try lia.
      * intros Hr. apply (rel_block m1 m2 p1 p2 s t) in Hr; try assumption; try lia. rewrite H3 in Hr by assumption. lia.
      * intros Hr. apply (rel_block m2 m1 p2 p1 t s) in Hr; try assumption; try lia. rewrite H3 in Hr by assumption. lia.
      * right. apply (rel_block m1 m2 p1 p2 s t); try assumption; lia.
    + apply HG. exists h. repeat split; try lia.
      * intros Hr. apply (rel_block m2 m1 p2 p1 t s) in Hr; try assumption; try lia. rewrite H3 in Hr by assumption. lia.
      * intros Hr. apply (rel_block m1 m2 p1 p2 s t) in Hr; try assumption; try lia. rewrite H3 in Hr by assumption. lia.
      * right. apply (rel_block m2 m1 p2 p1 t s); try assumption; lia.
Qed.

(** ** Comparison as unsigned char *)
Lemma uchar_id x : 0 <= x < 256 -> uchar x = x.
Proof. intros H. unfold uchar. now apply Z.mod_small. Qed.

Lemma map_uchar_id s : Forall (fun x => 0 <= x < 128) s -> map uchar s = s.
Proof.
  induction 1 as [|x s Hx _ IH]; [reflexivity|]. cbn. rewrite IH, uchar_id by lia. reflexivity.
Qed.

Lemma strcmp_partial_lemma d m1 m2 p1 p2 s t : cstr m1 p1 s -> cstr m2 p2 t ->
  (depth_bound (Nat.min (length s) (length t)) <= d)%nat ->
  Forall (fun x => 0 <= x < 128) s -> Forall (fun x => 0 <= x < 128) t ->
  exists r, strcmp d m1 m2 p1 p2 = Ok r /\ reports r (lexcmp (map uchar s) (map uchar t)).
Proof.
  intros Hs Ht Hd Fs Ft. rewrite !map_uchar_id by assumption. exists (outcome s t (lcp s t)). split; [now apply strcmp_lemma|].
  apply outcome_reports.
Qed.

Lemma strcmp_stored_lemma d m1 m2 p1 p2 s t : cstr m1 p1 s -> cstr m2 p2 t ->
  (depth_bound (Nat.min (length s) (length t)) <= d)%nat ->
  exists r, strcmp d m1 m2 p1 p2 = Ok r /\ reports r (lexcmp s t).
Proof. intros Hs Ht Hd. exists (outcome s t (lcp s t)). split; [now apply strcmp_lemma|]. apply outcome_reports. Qed.

Lemma lexcmp_signs x y s t : -128 <= x < 0 -> 0 <= y < 128 ->
  lexcmp (x :: s) (y :: t) = Lt /\ lexcmp (map uchar (x :: s)) (map uchar (y :: t)) = Gt.
Proof.
  intros Hx Hy. cbn [map lexcmp]. rewrite (uchar_id y) by lia.
  assert (E : uchar x = x + 256).
  { unfold uchar. symmetry. apply (Z.mod_unique_pos x 256 (-1)); lia. }
  rewrite E. split; [now replace (x ?= y) with Lt by (symmetry; apply Z.compare_lt_iff; lia)|].
  now replace (x + 256 ?= y) with Gt by (symmetry; apply Z.compare_gt_iff; lia).
Qed.

Lemma strcmp_refuted_lemma d m1 m2 p1 p2 s t x y : cstr m1 p1 (x :: s) -> cstr m2 p2 (y :: t) ->
  (depth_bound (Nat.min (length (x :: s)) (length (y :: t))) <= d)%nat -> -128 <= x < 0 -> 0 <= y < 128 ->
  exists r, strcmp d m1 m2 p1 p2 = Ok r /\ r < 0 /\ ~ reports r (lexcmp (map uchar (x :: s)) (map uchar (y :: t))).
Proof.
  intros Hs Ht Hd Hx Hy. destruct (strcmp_stored_lemma _ _ _ _ _ _ _ Hs Ht Hd) as (r & E & R).
  destruct (lexcmp_signs x y s t Hx Hy) as (E1 & E2). rewrite E1 in R. rewrite E2. cbn in R. exists r.
  cbn [reports]. split; [exact E|]. lia.
Qed.

Lemma strncmp_partial_lemma d m1 m2 p1 p2 n s t : cstr_n m1 p1 n s -> cstr_n m2 p2 n t -> (depth_bound n <= d)%nat ->
  Forall (fun x => 0 <= x < 128) s -> Forall (fun x => 0 <= x < 128) t ->
  exists r, strncmp d m1 m2 p1 p2 n = Ok r /\ reports r (lexcmp (map uchar s) (map uchar t)).
Proof. intros Hs Ht Hd Fs Ft. rewrite !map_uchar_id by assumption. now apply strncmp_lemma. Qed.

Lemma strncmp_refuted_lemma d m1 m2 p1 p2 n s t x y : cstr_n m1 p1 n (x :: s) -> cstr_n m2 p2 n (y :: t) ->
  (depth_bound n <= d)%nat -> -128 <= x < 0 -> 0 <= y < 128 ->
  exists r, strncmp d m1 m2 p1 p2 n = Ok r /\ r < 0 /\ ~ reports r (lexcmp (map uchar (x :: s)) (map uchar (y :: t))).
Proof.
  intros Hs Ht Hd Hx Hy. destruct (strncmp_lemma _ _ _ _ _ _ _ _ Hs Ht Hd) as (r & E & R).
  destruct (lexcmp_signs x y s t Hx Hy) as (E1 & E2). rewrite E1 in R. rewrite E2. cbn in R. exists r.
  cbn [reports]. split; [exact E|]. lia.
Qed.

(** ** strstr of two empty strings *)
Lemma strstr_empty_lemma d d2 m1 m2 p1 p2 : cstr m1 p1 [] -> cstr m2 p2 [] ->
  strstr d d2 m1 m2 p1 p2 = Ok None /\ first_occurrence [] [] (Some 0%nat).
Proof.
  intros H1 H2. split.
  - unfold strstr, strstr_detail.
    pose proof (nul_s m2 p2 [] 0 H2 ltac:(cbn; lia)) as N2. rewrite Nat.add_0_r in N2. rewrite N2. cbn [bind Nat.eqb length].
    unfold str_find_check. pose proof (nul_s m1 p1 [] 0 H1 ltac:(cbn; lia)) as N1. rewrite Nat.add_0_r in N1. now rewrite N1.
  - split; [now exists [], []|]. lia.
Qed.

(** ** Copying loops *)
Lemma upd_paste (m : list Z) i x : (i < length m)%nat -> upd m i x = paste m i [x].
Proof.
  intros H. pose proof (paste_snoc m i [] x ltac:(cbn; lia)) as E. cbn [length app] in E.
  now rewrite paste_nil, Nat.add_0_r in E.
Qed.

Lemma paste_step (m : list Z) i x ys : (i + S (length ys) <= length m)%nat ->
  paste (upd m i x) (S i) ys = paste m i (x :: ys).
Proof.
  intros H. rewrite upd_paste by lia. pose proof (paste_app m i [x] ys) as E. cbn [length app] in E.
  rewrite <- E by lia. f_equal. lia.
Qed.

Lemma upd_block m i x p s : (i < p \/ p + length s <= i)%nat -> block m p s -> block (upd m i x) p s.
Proof. intros Hi H j y E. pose proof (nth_error_lt _ _ _ E). rewrite upd_neq by lia. now apply H. Qed.

Lemma block_tl m p x s : block m p (x :: s) -> nth_error m p = Some x /\ block m (S p) s.
Proof.
  intros H. split.
  - rewrite <- (Nat.add_0_r p). now apply H.
  - intros i y E. replace (S p + i)%nat with (p + S i)%nat by lia. now apply H.
Qed.

Lemma rd_ok (m : list Z) i x : nth_error m i = Some x -> rd m i = Ok x.
Proof. unfold rd. now intros ->. Qed.

Lemma wr_ok (m : list Z) i x : (i < length m)%nat -> wr m i x = Ok (upd m i x).
Proof. intros H. unfold wr. now replace (i <? length m)%nat with true by lia. Qed.

Lemma copy_str_lemma s : forall k m s1 s2, cstr m s2 s -> (s1 <= s2 \/ s2 + length s < s1)%nat ->
  (s1 + length s < length m)%nat -> (length s < k)%nat -> copy_str k m s1 s2 = Ok (paste m s1 (s ++ [0])).
Proof.
  unfold copy_str. induction s as [|x s IH]; intros [|k] m s1 s2 (Hb & Hz & H0) HS Hl Hk; cbn [length] in *; try lia.
  - cbn [iter]. rewrite Nat.add_0_r in Hz. rewrite (rd_ok _ _ _ Hz). cbn [bind]. rewrite wr_ok by lia. cbn [bind Z.eqb app].
    now rewrite upd_paste by lia.
  - cbn [iter]. destruct (block_tl _ _ _ _ Hb) as (Hx & Hb'). rewrite (rd_ok _ _ _ Hx). cbn [bind]. rewrite wr_ok by lia.
    cbn [bind]. assert (x <> 0) by (intros ->; apply H0; now left). replace (x =? 0) with false by lia.
    rewrite IH; try (rewrite ?upd_length; lia).
    + cbn [app]. rewrite paste_step; [reflexivity|]. rewrite app_length. cbn. lia.
    + repeat split.
      * apply upd_block; [lia|exact Hb'].
      * rewrite upd_neq by lia. rewrite <- Hz. f_equal. lia.
      * intros Hin. apply H0. now right.
Qed.

Lemma strcpy_lemma k m s1 s2 s : cstr m s2 s -> (s1 <= s2 \/ s2 + length s < s1)%nat ->
  (s1 + length s < length m)%nat -> (length s < k)%nat -> strcpy k m s1 s2 = Ok (paste m s1 (s ++ [0]), s1).
Proof. intros. unfold strcpy. now rewrite (copy_str_lemma s). Qed.

(** what copy_strn stores *)
Definition cut (s : list Z) (n : nat) : list Z := s ++ if (length s <? n)%nat then [0] else [].

Lemma cut_length s n : (length s <= n)%nat -> length (cut s n) = Nat.min n (S (length s)).
Proof. intros H. unfold cut. rewrite app_length. destruct (Nat.ltb_spec (length s) n); cbn [length]; lia. Qed.

Lemma copy_strn_lemma s : forall k m s1 s2 n, cstr_n m s2 n s ->
  (s1 <= s2 \/ s2 + Nat.min n (S (length s)) <= s1)%nat ->
  (s1 + Nat.min n (S (length s)) <= length m)%nat -> (n < k)%nat ->
  copy_strn k m s1 s2 n = Ok (paste m s1 (cut s n), (s1 + length (cut s n))%nat, (n - length (cut s n))%nat).
Proof.
  unfold copy_strn. induction s as [|x s IH]; intros [|k] m s1 s2 [|n] (Hb & Hn & Hz & H0) HS Hl Hk; cbn [length] in *; try lia.
  - cbn. now rewrite paste_nil, Nat.add_0_r.
  - cbn [iter]. rewrite Nat.add_0_r in Hz. rewrite (rd_ok _ _ _ (Hz ltac:(lia))). cbn [bind]. rewrite wr_ok by lia.
    cbn [bind Z.eqb]. unfold cut. cbn [length Nat.ltb Nat.leb app]. rewrite upd_paste by lia. repeat f_equal; lia.
  - cbn [iter]. destruct (block_tl _ _ _ _ Hb) as (Hx & Hb'). rewrite (rd_ok _ _ _ Hx). cbn [bind]. rewrite wr_ok by lia.
    cbn [bind]. assert (x <> 0) by (intros ->; apply H0; now left). replace (x =? 0) with false by lia.
    assert (Ec : cut (x :: s) (S n) = x :: cut s n) by reflexivity.
    rewrite IH; try (rewrite ?upd_length; lia).
    + rewrite Ec. cbn [length]. rewrite paste_step; [f_equal; f_equal; f_equal; lia|]. rewrite cut_length by lia. lia.
    + repeat split.
      * apply upd_block; [lia|exact Hb'].
      * lia.
      * intros Hc. rewrite upd_neq by lia. rewrite <- Hz by lia. f_equal. lia.
      * intros Hin. apply H0. now right.
Qed.

Lemma pad_lemma n : forall k m p, (p + n <= length m)%nat -> (n < k)%nat ->
  iter k (fun '((m, p, n) : list Z * nat * nat) =>
         match n with
         | O => Ok (inr m)
         | S n => m <- wr m p 0 ;; Ok (inl (m, S p, n))
         end) (m, p, n) = Ok (paste m p (repeat 0 n)).
Proof.
  induction n as [|n IH]; intros [|k] m p Hl Hk; try lia; cbn [iter bind].
  - cbn. now rewrite paste_nil.
  - rewrite wr_ok by lia. cbn [bind]. rewrite IH by (rewrite ?upd_length; lia). cbn [repeat].
    rewrite paste_step; [reflexivity|]. rewrite repeat_length. lia.
Qed.

Lemma strncpy_lemma k m s1 s2 n s : cstr_n m s2 n s ->
  (s1 <= s2 \/ s2 + Nat.min n (S (length s)) <= s1)%nat -> (s1 + n <= length m)%nat -> (n < k)%nat ->
  strncpy k m s1 s2 n = Ok (paste m s1 (s ++ repeat 0 (n - length s)), s1).
Proof.
  intros H HS Hl Hk. unfold strncpy. rewrite (copy_strn_lemma s) by (assumption || lia). cbn [bind].
  assert (Hn : (length s <= n)%nat) by apply H.
  pose proof (cut_length s n Hn) as Ec.
  rewrite pad_lemma; [|rewrite paste_length; lia|lia]. cbn [bind].
  rewrite paste_app by (rewrite repeat_length; lia). do 3 f_equal.
  unfold cut in *. destruct (Nat.ltb_spec (length s) n) as [L|L].
  - rewrite <- app_assoc. f_equal. rewrite app_length. cbn [length app].
    replace (n - length s)%nat with (S (n - (length s + 1))) by lia. reflexivity.
  - rewrite app_nil_r. reflexivity.
Qed.

(** ** strcat, strncat *)
Lemma scan_past s : forall k m p, cstr m p s -> (length s < k)%nat ->
  iter k (fun p : nat => x <- rd m p ;; Ok (if x =? 0 then inr (S p) else inl (S p))) p = Ok (S (p + length s)).
Proof.
  induction s as [|x s IH]; intros [|k] m p (Hb & Hz & H0) Hk; cbn [length] in *; try lia.
  - cbn [iter]. rewrite Nat.add_0_r in *. now rewrite (rd_ok _ _ _ Hz).
  - cbn [iter]. destruct (block_tl _ _ _ _ Hb) as (Hx & Hb'). rewrite (rd_ok _ _ _ Hx). cbn [bind].
    assert (x <> 0) by (intros ->; apply H0; now left). replace (x =? 0) with false by lia.
    rewrite IH; [f_equal; lia| |lia]. repeat split; [exact Hb'| |].
    + rewrite <- Hz. f_equal. lia.
    + intros Hin. apply H0. now right.
Qed.

Lemma scan_to s : forall k m p, cstr m p s -> (length s < k)%nat ->
  iter k (fun p : nat => x <- rd m p ;; Ok (if x =? 0 then inr p else inl (S p))) p = Ok (p + length s)%nat.
Proof.
  induction s as [|x s IH]; intros [|k] m p (Hb & Hz & H0) Hk; cbn [length] in *; try lia.
  - cbn [iter]. rewrite Nat.add_0_r in *. now rewrite (rd_ok _ _ _ Hz).
  - cbn [iter]. destruct (block_tl _ _ _ _ Hb) as (Hx & Hb'). rewrite (rd_ok _ _ _ Hx). cbn [bind].
    assert (x <> 0) by (intros ->; apply H0; now left). replace (x =? 0) with false by lia.
    rewrite IH; [f_equal; lia| |lia]. repeat split; [exact Hb'| |].
    + rewrite <- Hz. f_equal. lia.
    + intros Hin. apply H0. now right.
Qed.

Lemma cstr_frame m m' p s : cstr m p s -> (forall j, (p <= j <= p + length s)%nat -> nth_error m' j = nth_error m j) ->
  cstr m' p s.
Proof.
  intros (Hb & Hz & H0) HF. repeat split; [|rewrite HF by lia; exact Hz|exact H0].
  intros i x E. pose proof (nth_error_lt _ _ _ E). rewrite HF by lia. now apply Hb.
Qed.

Lemma strcat_lemma k m s1 s2 s t : cstr m s1 s -> cstr m s2 t ->
  (s1 + length s < s2 \/ s2 + length t <= s1 + length s)%nat ->
  (s1 + length s + 1 + length t < length m)%nat -> (length s < k)%nat -> (length t < k)%nat ->
  let m' := paste m (s1 + length s + 1) (t ++ [0]) in
  strcat k m s1 s2 = Ok (m', s1) /\ cstr m' s1 s.
Proof.
  intros Hs Ht HS Hl Hk1 Hk2. cbv zeta. split.
  - unfold strcat. rewrite (scan_past s) by assumption. cbn [bind].
    replace (s1 + length s + 1)%nat with (S (s1 + length s)) in * by lia.
    rewrite (copy_str_lemma t) by (assumption || lia). reflexivity.
  - apply (cstr_frame m); [exact Hs|]. intros j Hj. apply nth_paste_out; [rewrite app_length; cbn; lia|lia].
Qed.

(** the run into the end of the array *)
Lemma copy_str_overrun s : forall k m s1 s2, cstr m s2 s -> (s1 <= s2 \/ s2 + length s < s1)%nat ->
  (s1 <= length m)%nat -> (length m <= s1 + length s)%nat -> (length s < k)%nat -> copy_str k m s1 s2 = UB.
Proof.
  unfold copy_str. induction s as [|x s IH]; intros [|k] m s1 s2 (Hb & Hz & H0) HS H1 Hl Hk; cbn [length] in *; try lia.
  - cbn [iter]. rewrite Nat.add_0_r in Hz. rewrite (rd_ok _ _ _ Hz). cbn [bind]. unfold wr.
    now replace (s1 <? length m)%nat with false by lia.
  - cbn [iter]. destruct (block_tl _ _ _ _ Hb) as (Hx & Hb'). rewrite (rd_ok _ _ _ Hx). cbn [bind].
    destruct (Nat.eq_dec s1 (length m)) as [E|E].
    { unfold wr. now replace (s1 <? length m)%nat with false by lia. }
    rewrite wr_ok by lia.
    cbn [bind]. assert (x <> 0) by (intros ->; apply H0; now left). replace (x =? 0) with false by lia.
    apply IH; try (rewrite ?upd_length; lia).
    repeat split.
    + apply upd_block; [lia|exact Hb'].
    + rewrite upd_neq by lia. rewrite <- Hz. f_equal. lia.
    + intros Hin. apply H0. now right.
Qed.

Lemma strcat_overrun_lemma k m s1 s2 s t : cstr m s1 s -> cstr m s2 t ->
  (s2 + length t < s1)%nat ->
  length m = (s1 + length s + length t + 1)%nat -> (length s < k)%nat -> (length t < k)%nat ->
  strcat k m s1 s2 = UB.
Proof.
  intros Hs Ht HS Hl Hk1 Hk2. unfold strcat. rewrite (scan_past s) by assumption. cbn [bind].
  rewrite (copy_str_overrun t) by (assumption || lia). reflexivity.
Qed.

Lemma strncat_lemma k m s1 s2 n s t : cstr m s1 s -> cstr_n m s2 n t ->
  (s1 + length s < s2 \/ s2 + Nat.min n (S (length t)) <= s1 + length s)%nat ->
  (s1 + length s + length (cut t n) < length m)%nat -> (length s < k)%nat -> (n < k)%nat ->
  strncat k m s1 s2 n = Ok (paste m (s1 + length s) (cut t n ++ [0]), s1).
Proof.
  intros Hs Ht HS Hl Hk1 Hk2. unfold strncat. rewrite (scan_to s) by assumption. cbn [bind].
  assert (Hn : (length t <= n)%nat) by apply Ht.
  pose proof (cut_length t n Hn) as Ec.
  rewrite (copy_strn_lemma t) by (assumption || lia). cbn [bind].
  rewrite wr_ok by (rewrite paste_length; lia). cbn [bind]. rewrite paste_snoc by lia. reflexivity.
Qed.

Lemma strncat_partial_lemma k m s1 s2 n s t : cstr m s1 s -> cstr_n m s2 n t -> length t = n ->
  (s1 + length s < s2 \/ s2 + length t <= s1 + length s)%nat ->
  (s1 + length s + length t < length m)%nat -> (length s < k)%nat -> (n < k)%nat ->
  strncat k m s1 s2 n = Ok (paste m (s1 + length s) (t ++ [0]), s1).
Proof.
  intros Hs Ht En HS Hl Hk1 Hk2.
  assert (Ec : cut t n = t) by (unfold cut; rewrite En, Nat.ltb_irrefl; apply app_nil_r).
  rewrite (strncat_lemma k m s1 s2 n s t) by (assumption || rewrite ?Ec; lia). now rewrite Ec.
Qed.

Lemma strncat_refuted_lemma k m s1 s2 n s t : cstr m s1 s -> cstr_n m s2 n t -> (length t < n)%nat ->
  (s1 + length s < s2 \/ s2 + length t < s1 + length s)%nat -> (length s < k)%nat -> (n < k)%nat ->
  ((s1 + length s + length t + 1 < length m)%nat ->
     strncat k m s1 s2 n = Ok (paste m (s1 + length s) (t ++ [0; 0]), s1)) /\
  (length m = (s1 + length s + length t + 1)%nat -> strncat k m s1 s2 n = UB).
Proof.
  intros Hs Ht En HS Hk1 Hk2.
  assert (Ec : cut t n = t ++ [0]) by (unfold cut; now replace (length t <? n)%nat with true by lia).
  split; intros Hl.
  - rewrite (strncat_lemma k m s1 s2 n s t); try assumption; try lia.
    + rewrite Ec, <- app_assoc. reflexivity.
    + rewrite Ec, app_length. cbn. lia.
  - unfold strncat. rewrite (scan_to s) by assumption. cbn [bind].
    rewrite (copy_strn_lemma t) by (assumption || lia). cbn [bind].
    unfold wr. rewrite paste_length by (rewrite Ec, app_length; cbn; lia).
    rewrite Ec, app_length. cbn [length]. now replace (s1 + length s + (length t + 1) <? length m)%nat with false by lia.
Qed.

(** ** memcpy, memmove, memset *)
Lemma memcpy_lemma k m s1 s2 n : (s2 + n <= length m)%nat -> (s1 + n <= length m)%nat ->
  (s1 <= s2 \/ s2 + n <= s1)%nat -> (n < k)%nat ->
  memcpy k m s1 s2 n = Ok (paste m s1 (slice m s2 (s2 + n)), s1).
Proof.
  intros H1 H2 HS Hk. unfold memcpy. rewrite copy_correct_lemma; [reflexivity|split; lia|exact HS|lia|lia].
Qed.

Lemma memmove_before_lemma k m s1 s2 n : (s2 + n <= length m)%nat -> (n <= s1 <= length m)%nat ->
  (s2 + n <= s1 \/ s1 <= s2)%nat -> (n < k)%nat ->
  memmove k m s1 s2 n = Ok (paste m (s1 - n) (slice m s2 (s2 + n)), s1).
Proof.
  intros H1 H2 HS Hk. unfold memmove. rewrite copy_backward_correct_lemma; [|split; lia|exact HS|lia|lia].
  cbn [bind fst]. now replace (s2 + n - s2)%nat with n by lia.
Qed.

Lemma copy_backward_under first : forall result k (m : list Z) last, (first <= last <= length m)%nat ->
  (result <= length m)%nat -> (result < last - first)%nat -> (last - first < k)%nat ->
  copy_backward k m first last result = UB.
Proof.
  unfold copy_backward.
  induction result as [|r IH]; intros [|k] m last V Hr Hlt Hk; try lia; cbn [iter];
    replace (first =? last)%nat with false by lia; destruct last as [|last]; try lia; cbn [dec bind].
  - destruct (rd m last) as [x| |] eqn:E; [reflexivity|reflexivity|].
    unfold rd in E. destruct (nth_error m last); discriminate.
  - destruct (nth_error_ex m last ltac:(lia)) as (x & Ex). rewrite (rd_ok _ _ _ Ex). cbn [bind].
    rewrite wr_ok by lia. cbn [bind]. apply IH; rewrite ?upd_length; lia.
Qed.

Lemma memmove_under_lemma k m s1 s2 n : (s2 + n <= length m)%nat -> (s1 + n <= length m)%nat ->
  (s1 < n)%nat -> (n < k)%nat -> memmove k m s1 s2 n = UB.
Proof.
  intros H1 H2 H3 Hk. unfold memmove. now rewrite (copy_backward_under s2 s1 k m (s2 + n)) by lia.
Qed.

Lemma memset_lemma k m s c n : (s + n <= length m)%nat -> (n < k)%nat ->
  memset k m s c n = Ok (paste m s (repeat (uchar c) n), s).
Proof.
  intros H Hk. unfold memset. rewrite fill_correct_lemma; [|split; lia|lia]. cbn [bind].
  now replace (s + n - s)%nat with n by lia.
Qed.
