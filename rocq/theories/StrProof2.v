(** Proofs about StrModel.v: comparison, spans and strstr. *)
From Coq Require Import List Arith ZArith Bool Lia.
From Coq Require Import ZifyBool ZifyNat.
From Verif Require Import Base BaseProof BitModel BitSpec BitProof ShaModel SearchModel SearchSpec SearchProof OrderModel OrderSpec
  OrderProof MutProof StrModel StrSpec StrProof.
Import ListNotations.
Open Scope Z_scope.

Lemma skipn_cons (s : list Z) i : (i < length s)%nat -> skipn i s = nth i s 0 :: skipn (S i) s.
Proof. revert i. induction s as [|x t IH]; intros [|i] H; cbn in *; try lia; [reflexivity|]. apply IH. lia. Qed.

Lemma nth_firstn_lt (s : list Z) n i : (i < n)%nat -> nth i (firstn n s) 0 = nth i s 0.
Proof. revert n i. induction s as [|x t IH]; intros [|n] [|i] H; cbn; try lia; try reflexivity. apply IH. lia. Qed.

Lemma nth_skipn (s : list Z) n i : nth i (skipn n s) 0 = nth (n + i) s 0.
Proof. revert n i. induction s as [|x t IH]; intros [|n] i; cbn; try reflexivity; [destruct i; reflexivity|]. apply IH. Qed.

Lemma skipn_skipn_z (s : list Z) n k : skipn n (skipn k s) = skipn (k + n) s.
Proof. revert k. induction s as [|x t IH]; intros [|k]; cbn; try reflexivity; [now rewrite skipn_nil|]. apply IH. Qed.

(** ** The longest common prefix *)
Fixpoint lcp (s t : list Z) : nat :=
  match s, t with
  | x :: s, y :: t => if x =? y then S (lcp s t) else O
  | _, _ => O
  end.

Lemma lcp_spec s : forall t, (lcp s t <= length s)%nat /\ (lcp s t <= length t)%nat /\
  (forall j, (j < lcp s t)%nat -> nth j s 0 = nth j t 0) /\
  ((lcp s t < length s)%nat -> (lcp s t < length t)%nat -> nth (lcp s t) s 0 <> nth (lcp s t) t 0) /\
  lexcmp s t = lexcmp (skipn (lcp s t) s) (skipn (lcp s t) t).
Proof.
  induction s as [|x s IH]; intros [|y t]; cbn [lcp]; try (cbn; repeat split; auto; lia).
  destruct (Z.eqb_spec x y) as [->|Hne].
  - destruct (IH t) as (H1 & H2 & H3 & H4 & H5). cbn [length skipn]. repeat split; try lia.
    + intros [|j] Hj; [reflexivity|]. cbn. apply H3. lia.
    + intros A B. cbn. apply H4; lia.
    + cbn [lexcmp]. rewrite Z.compare_refl. exact H5.
  - cbn. repeat split; auto; lia.
Qed.

(** ** strcmp *)
Definition outcome (s t : list Z) (h : nat) : Z :=
  if (h =? length t)%nat then if (h =? length s)%nat then 0 else 1
  else if (h =? length s)%nat then -1
  else if nth h s 0 <? nth h t 0 then -1 else if nth h t 0 <? nth h s 0 then 1 else 2.

Lemma outcome_reports s t : reports (outcome s t (lcp s t)) (lexcmp s t).
Proof.
  destruct (lcp_spec s t) as (H1 & H2 & H3 & H4 & ->). unfold outcome.
  set (h := lcp s t) in *.
  destruct (Nat.eqb_spec h (length t)) as [Et|Et].
  - rewrite (skipn_all2 t) by lia. destruct (Nat.eqb_spec h (length s)) as [Es|Es].
    + rewrite skipn_all2 by lia. reflexivity.
    + rewrite (skipn_cons s) by lia. cbn. lia.
  - rewrite (skipn_cons t) by lia. destruct (Nat.eqb_spec h (length s)) as [Es|Es].
    + rewrite (skipn_all2 s) by lia. cbn. lia.
    + rewrite (skipn_cons s) by lia. cbn [lexcmp].
      specialize (H4 ltac:(lia) ltac:(lia)).
      destruct (Z.compare_spec (nth h s 0) (nth h t 0)) as [E|E|E]; [lia| |]; cbn [reports].
      * replace (nth h s 0 <? nth h t 0) with true by lia. lia.
      * replace (nth h s 0 <? nth h t 0) with false by lia. replace (nth h t 0 <? nth h s 0) with true by lia. lia.
Qed.

Lemma outcome_ne2 s t : outcome s t (lcp s t) <> 2.
Proof.
  destruct (lcp_spec s t) as (H1 & H2 & _ & H4 & _). unfold outcome. set (h := lcp s t) in *.
  destruct (h =? length t)%nat eqn:Et; [destruct (h =? length s)%nat; lia|].
  destruct (h =? length s)%nat eqn:Es; [lia|]. specialize (H4 ltac:(lia) ltac:(lia)).
  destruct (Z.ltb_spec (nth h s 0) (nth h t 0)); [lia|]. destruct (Z.ltb_spec (nth h t 0) (nth h s 0)); lia.
Qed.

Lemma strcmp_lemma d m1 m2 p1 p2 s t : cstr m1 p1 s -> cstr m2 p2 t ->
  (depth_bound (Nat.min (length s) (length t)) <= d)%nat ->
  strcmp d m1 m2 p1 p2 = Ok (outcome s t (lcp s t)).
Proof.
  intros Hs Ht Hd. destruct (lcp_spec s t) as (H1 & H2 & H3 & H4 & _). set (h := lcp s t) in *.
  unfold strcmp. apply wp_det. apply wp_bind.
  apply (dbl_rule _ _ (fun '(q1, q2, r) => exists i, q1 = (p1 + i)%nat /\ q2 = (p2 + i)%nat /\ (i <= h)%nat /\
       (r = 0 \/ i = h /\ (h < length s)%nat /\ (h < length t)%nat /\ r = outcome s t h /\ r <> 2))
    (fun '(q1, q2, r) => if r =? 0 then (Nat.min (length s) (length t) - (q1 - p1))%nat else 0%nat)); [| | |].
  - intros [[q1 q2] r] s'. destruct (r =? 0) eqn:Er; cbn [negb].
    + destruct (nul m2 q2) as [[]| |] eqn:E; cbn [bind]; try discriminate.
      * intros [= <-]. rewrite Er. cbn [negb]. now rewrite E.
      * destruct (nul m1 q1) as [[]| |] eqn:E'; cbn [bind]; try discriminate.
        intros [= <-]. rewrite Er. cbn [negb]. rewrite E. cbn [bind]. now rewrite E'.
    + intros [= <-]. now rewrite Er.
  - intros [[q1 q2] r] (i & -> & -> & Hi & Hr).
    assert (Final : (i = length s \/ i = length t \/ r <> 0) ->
      wp (strcmp_impl_check m1 m2 ((p1 + i)%nat, (p2 + i)%nat, r)) (fun b => b = outcome s t h)).
    { intros Hf. unfold strcmp_impl_check.
      rewrite (nul_s m2 p2 t) by (assumption || lia). rewrite (nul_s m1 p1 s) by (assumption || lia). cbn [bind wp].
      destruct (Nat.eqb_spec i (length t)) as [Et|Et], (Nat.eqb_spec i (length s)) as [Es|Es]; unfold outcome in *;
        assert (Eih : i = h) by lia.
      - replace (h =? length t)%nat with true by lia. now replace (h =? length s)%nat with true by lia.
      - replace (h =? length t)%nat with true by lia. now replace (h =? length s)%nat with false by lia.
      - replace (h =? length t)%nat with false by lia. now replace (h =? length s)%nat with true by lia.
      - destruct Hr as [->|(_ & _ & _ & -> & _)]; [lia|reflexivity]. }
    destruct (r =? 0) eqn:Er; cbn [negb].
    + assert (r = 0) by lia. subst r.
      rewrite (nul_s m2 p2 t) by (assumption || lia). rewrite (nul_s m1 p1 s) by (assumption || lia). cbn [bind].
      destruct (Nat.eqb_spec i (length t)) as [Et|Et].
      * left. eexists. split; [reflexivity|]. apply Final. auto.
      * destruct (Nat.eqb_spec i (length s)) as [Es|Es].
        -- left. eexists. split; [reflexivity|]. apply Final. auto.
        -- right. split; [reflexivity|].
           rewrite (rd_s m1 p1 s) by (assumption || lia). rewrite (rd_s m2 p2 t) by (assumption || lia). cbn [bind].
           destruct (Z.ltb_spec (nth i s 0) (nth i t 0)) as [A|A]; [|destruct (Z.ltb_spec (nth i t 0) (nth i s 0)) as [B|B]];
             cbn [wp].
           ++ assert (i = h) by (destruct (Nat.lt_ge_cases i h) as [L|L]; [specialize (H3 i L)|]; lia). subst i.
              split; [|cbn; lia]. exists h. repeat split; try lia. right. repeat split; try lia.
              unfold outcome. replace (h =? length t)%nat with false by lia. replace (h =? length s)%nat with false by lia.
              now replace (nth h s 0 <? nth h t 0) with true by lia.
           ++ assert (i = h) by (destruct (Nat.lt_ge_cases i h) as [L|L]; [specialize (H3 i L)|]; lia). subst i.
              split; [|cbn; lia]. exists h. repeat split; try lia. right. repeat split; try lia.
              unfold outcome. replace (h =? length t)%nat with false by lia. replace (h =? length s)%nat with false by lia.
              replace (nth h s 0 <? nth h t 0) with false by lia. now replace (nth h t 0 <? nth h s 0) with true by lia.
           ++ split; [|cbn [Z.eqb]; lia]. exists (S i). repeat split; try lia.
              destruct (Nat.eq_dec i h) as [->|]; [|lia]. specialize (H4 ltac:(lia) ltac:(lia)). lia.
    + left. eexists. split; [reflexivity|]. apply Final. lia.
  - exists 0%nat. repeat split; try lia.
  - cbn [Z.eqb]. now rewrite Nat.sub_diag, Nat.sub_0_r.
Qed.

(** ** strncmp *)
Definition leaf (m1 m2 : list Z) (i j : nat) : res Z :=
  y <- rd m2 j ;; x <- rd m1 i ;;
  Ok (if is_delim y then if is_delim x then 0 else 1
      else if is_delim x || (x <? y) then -1 else if y <? x then 1 else 2).

Lemma tri_upto m1 m2 p1 p2 (o : nat -> Z) h d : forall i size, (0 < size)%nat -> (i <= h)%nat ->
  (forall j, (i <= j < i + size)%nat -> (j <= h)%nat -> leaf m1 m2 (p1 + j) (p2 + j) = Ok (o j)) ->
  (forall j, (i <= j < i + size)%nat -> (j < h)%nat -> o j = 2) -> ((h < i + size)%nat -> o h <> 2) ->
  (Nat.log2_up size < d)%nat ->
  tristate_2_impl_ra d m1 m2 (p1 + i) (p2 + i) size 2 = Ok (if (h <? i + size)%nat then o h else 2).
Proof.
  induction d as [|d IH]; intros i n Hn Hi Ho H2 Hh Hd; [lia|].
  cbn [tristate_2_impl_ra]. cbn [Z.eqb Pos.eqb negb].
  destruct (Nat.eqb_spec n 1) as [->|Hn1].
  - change (leaf m1 m2 (p1 + i) (p2 + i) = Ok (if (h <? i + 1)%nat then o h else 2)).
    rewrite Ho by lia. f_equal. destruct (Nat.ltb_spec h (i + 1)) as [L|L].
    + now replace h with i by lia.
    + apply H2; lia.
  - assert (Hd2 : (2 * (n / 2) <= n)%nat) by (apply Nat.mul_div_le; lia).
    assert (Hd1 : (1 <= n / 2)%nat) by (apply Nat.div_le_lower_bound; lia).
    assert (L1 := log2_half n ltac:(lia)). assert (L2 := log2_half' n ltac:(lia)).
    rewrite (IH i (n / 2)%nat); cycle 1.
    { lia. } { lia. }
    { intros j Hj Hj'. apply Ho; lia. }
    { intros j Hj Hj'. apply H2; lia. }
    { intros Hj. apply Hh; lia. }
    { lia. }
    cbn [bind].
    destruct (Nat.ltb_spec h (i + n / 2)) as [L|L].
    + specialize (Hh ltac:(lia)). replace (h <? i + n)%nat with true by lia.
      destruct d as [|d]; [lia|]. cbn [tristate_2_impl_ra]. now replace (o h =? 2) with false by lia.
    + rewrite <- !Nat.add_assoc. rewrite (IH (i + n / 2)%nat (n - n / 2)%nat); cycle 1.
      { lia. } { lia. }
      { intros j Hj Hj'. apply Ho; lia. }
      { intros j Hj Hj'. apply H2; lia. }
      { intros Hj. apply Hh; lia. }
      { lia. }
      now replace (i + n / 2 + (n - n / 2))%nat with (i + n)%nat by lia.
Qed.

Lemma is_delim_eq x : is_delim x = (x =? 0).
Proof. unfold is_delim. lia. Qed.

Lemma nth0 s i : ~ In 0 s -> (i <= length s)%nat -> (nth i s 0 =? 0) = (i =? length s)%nat.
Proof.
  intros H Hi. destruct (Nat.eqb_spec i (length s)) as [->|Hne].
  - now rewrite nth_overflow.
  - apply Z.eqb_neq, nth_nz; [exact H|lia].
Qed.

Lemma strncmp_lemma d m1 m2 p1 p2 n s t : cstr_n m1 p1 n s -> cstr_n m2 p2 n t -> (depth_bound n <= d)%nat ->
  exists r, strncmp d m1 m2 p1 p2 n = Ok r /\ reports r (lexcmp s t).
Proof.
  intros Hs Ht Hd. pose proof (outcome_reports s t) as HR.
  destruct (lcp_spec s t) as (H1 & H2 & H3 & H4 & Hl). set (h := lcp s t) in *.
  assert (Hsn : (length s <= n)%nat) by apply Hs. assert (Htn : (length t <= n)%nat) by apply Ht.
  assert (S0 : ~ In 0 s) by apply Hs. assert (T0 : ~ In 0 t) by apply Ht.
  unfold strncmp. destruct (Nat.eqb_spec n 0) as [->|Hn].
  { cbn. exists 0. split; [reflexivity|]. destruct s, t; cbn in *; try lia. }
  pose proof (tri_upto m1 m2 p1 p2 (outcome s t) h d 0 n) as T.
  rewrite !Nat.add_0_r in T. rewrite T; clear T; cbn [bind]; try lia.
  - cbn [Nat.add]. destruct (Nat.ltb_spec h n) as [L|L].
    + exists (outcome s t h). split; [|exact HR].
      pose proof (outcome_ne2 s t) as Ho. fold h in Ho. now replace (outcome s t h =? 2) with false by lia.
    + exists 0. split; [reflexivity|]. rewrite Hl. rewrite !skipn_all2 by lia. reflexivity.
  - intros j Hj Hjh. unfold leaf.
    rewrite (rd_n m2 p2 n t) by (assumption || lia). rewrite (rd_n m1 p1 n s) by (assumption || lia).
    cbn [bind]. rewrite !is_delim_eq, !nth0 by (assumption || lia). unfold outcome. f_equal.
    destruct (j =? length t)%nat; [reflexivity|]. destruct (j =? length s)%nat; reflexivity.
  - intros j Hj Hjh. unfold outcome. specialize (H3 j Hjh).
    replace (j =? length t)%nat with false by lia. replace (j =? length s)%nat with false by lia.
    now rewrite H3, Z.ltb_irrefl.
  - intros _. apply outcome_ne2.
  - now apply depth_ra.
Qed.

(** ** strspn, strcspn, strpbrk *)
Lemma strchr_detail_in d m p t x : cstr m p t -> (depth_bound (length t) <= d)%nat ->
  exists q, strchr_detail d m p x = Ok q /\ exists b, nul m q = Ok b /\ (b = false <-> In x t).
Proof.
  intros H Hd. destruct (strchr_detail_lemma d m p t x H Hd) as (h & -> & H1 & H2 & H3).
  eexists. split; [reflexivity|]. eexists. split; [apply (nul_s m p t); assumption|].
  destruct (Nat.eqb_spec h (length t)) as [->|Hne].
  - split; [easy|]. intros Hin. exfalso. apply (In_nth _ _ 0) in Hin. destruct Hin as (j & Hj & E).
    now apply (H2 j).
  - split; [|easy]. intros _. rewrite <- (H3 ltac:(lia)). apply nth_In. lia.
Qed.

Lemma span_lemma want d d2 m1 m2 p1 p2 s t : cstr m1 p1 s -> cstr m2 p2 t ->
  (depth_bound (length s) <= d)%nat -> (depth_bound (length t) <= d2)%nat ->
  exists n, span want d d2 m1 m2 p1 p2 = Ok n /\ prefix_len (fun x => if want then In x t else ~ In x t) s n.
Proof.
  intros Hs Ht Hd Hd2. set (P := fun x => if want then In x t else ~ In x t).
  cut (wp (span want d d2 m1 m2 p1 p2) (prefix_len P s)).
  { intros W. apply wp_out in W. exact W. }
  unfold span. apply wp_bind.
  assert (Fin : forall n, (n <= length s)%nat -> (forall j, (j < n)%nat -> P (nth j s 0)) ->
    ((n < length s)%nat -> ~ P (nth n s 0)) -> prefix_len P s n).
  { intros n H1 H2 H3. repeat split; [exact H1| |].
    - intros x Hx. apply (In_nth _ _ 0) in Hx. destruct Hx as (j & Hj & <-).
      rewrite firstn_length in Hj. rewrite nth_firstn_lt by lia. apply H2. lia.
    - intros x Hx. pose proof (nth_error_lt _ _ _ Hx). rewrite <- (nth_ok _ _ _ Hx). now apply H3. }
  apply (dbl_rule _ _ (fun '(q, n, f) => q = (p1 + n)%nat /\ (n <= length s)%nat /\
      (forall j, (j < n)%nat -> P (nth j s 0)) /\ (f = true -> (n < length s)%nat /\ ~ P (nth n s 0)))
    (fun '(q, n, f) => if f : bool then 0%nat else (length s - n)%nat)); [| | |].
  - intros [[q n] []] s'; cbn [bind].
    + intros [= <-]. reflexivity.
    + destruct (nul m1 q) as [[]| |] eqn:E; cbn [bind]; try discriminate.
      intros [= <-]. now rewrite E.
  - intros [[q n] f] (-> & Hn & HP & Hf). destruct f.
    + left. eexists. split; [reflexivity|]. cbn [wp]. destruct (Hf eq_refl). apply Fin; auto.
    + rewrite (nul_s m1 p1 s) by assumption. cbn [bind].
      destruct (Nat.eqb_spec n (length s)) as [E|E].
      * left. eexists. split; [reflexivity|]. cbn [wp]. apply Fin; auto; lia.
      * right. split; [reflexivity|]. rewrite (rd_s m1 p1 s) by assumption. cbn [bind].
        destruct (strchr_detail_in d2 m2 p2 t (nth n s 0) Ht Hd2) as (q & -> & b & Eb & Hb).
        cbn [bind]. rewrite Eb. cbn [bind].
        assert (HPn : Bool.eqb (negb b) want = true <-> P (nth n s 0)).
        { unfold P. destruct b, want; cbn [negb Bool.eqb]; split; try easy; intuition. }
        destruct (Bool.eqb (negb b) want); cbn [wp].
        -- split; [|lia]. repeat split; try lia; try easy.
           intros j Hj. destruct (Nat.eq_dec j n) as [->|]; [now apply HPn|apply HP; lia].
        -- split; [|lia]. repeat split; try lia; auto.
           intros Hp. apply HPn in Hp. discriminate.
  - repeat split; try lia; easy.
  - now rewrite Nat.sub_0_r.
Qed.

Lemma strchr_in ct d m p t x : cstr m p t -> (depth_bound (length t) <= d)%nat -> is_val ct x -> x <> 0 ->
  exists r, strchr ct d m p x = Ok r /\ (r <> None <-> In x t).
Proof.
  intros H Hd Hx H0. destruct (strchr_lemma ct d m p t x H Hd) as (r & -> & Hr).
  rewrite conv_id in Hr by exact Hx. eexists. split; [reflexivity|]. destruct r as [i|]; cbn [option_map].
  - destruct Hr as ((y & Hy & <-) & _). split; [|easy]. intros _.
    apply nth_error_In in Hy. apply in_app_or in Hy. destruct Hy as [Hy|[Hy|[]]]; [exact Hy|now symmetry in Hy].
  - split; [easy|]. intros Hin. exfalso. apply (Hr x); [|reflexivity]. apply in_or_app. now left.
Qed.

Lemma strpbrk_lemma ct d d2 m1 m2 p1 p2 s t : cstr m1 p1 s -> cstr m2 p2 t -> Forall (is_val ct) s ->
  (depth_bound (length s) <= d)%nat -> (depth_bound (length t) <= d2)%nat ->
  exists r, strpbrk ct d d2 m1 m2 p1 p2 = Ok (option_map (Nat.add p1) r) /\ first_of (fun x => In x t) s r.
Proof.
  intros Hs Ht HV Hd Hd2.
  cut (wp (strpbrk ct d d2 m1 m2 p1 p2) (fun q => exists r, q = option_map (Nat.add p1) r /\ first_of (fun x => In x t) s r)).
  { intros W. apply wp_out in W. destruct W as (q & E & r & -> & Hr). eauto. }
  unfold strpbrk. apply wp_bind.
  apply (dbl_rule _ _ (fun '(q, f) => exists n, q = (p1 + n)%nat /\ (n <= length s)%nat /\
      (forall j, (j < n)%nat -> ~ In (nth j s 0) t) /\ (f = true -> (n < length s)%nat /\ In (nth n s 0) t))
    (fun '(q, f) => if f : bool then 0%nat else (length s - (q - p1))%nat)); [| | |].
  - intros [q []] s'; cbn [bind].
    + intros [= <-]. reflexivity.
    + destruct (nul m1 q) as [[]| |] eqn:E; cbn [bind]; try discriminate.
      intros [= <-]. now rewrite E.
  - intros [q f] (n & -> & Hn & HP & Hf). destruct f.
    + left. eexists. split; [reflexivity|]. destruct (Hf eq_refl) as (Hn' & Hin). cbn [fst].
      unfold str_find_check. rewrite (nul_s m1 p1 s) by assumption. cbn [bind wp].
      replace (n =? length s)%nat with false by lia. exists (Some n). split; [reflexivity|].
      now apply first_of_some.
    + rewrite (nul_s m1 p1 s) by assumption. cbn [bind].
      destruct (Nat.eqb_spec n (length s)) as [E|E].
      * left. eexists. split; [reflexivity|]. cbn [fst].
        unfold str_find_check. rewrite (nul_s m1 p1 s) by assumption. cbn [bind wp].
        replace (n =? length s)%nat with true by lia. exists None. split; [reflexivity|].
        apply first_of_none. intros j Hj. apply HP. lia.
      * right. split; [reflexivity|]. rewrite (rd_s m1 p1 s) by assumption. cbn [bind].
        destruct (strchr_in ct d2 m2 p2 t (nth n s 0) Ht Hd2) as (r & -> & Hr).
        { rewrite Forall_forall in HV. apply HV, nth_In. lia. }
        { apply nth_nz; [apply Hs|lia]. }
        cbn [bind]. destruct r as [r|]; cbn [wp].
        -- split; [|lia]. exists n. repeat split; try lia; auto. now apply Hr.
        -- split; [|lia]. exists (S n). repeat split; try lia; try easy.
           intros j Hj. destruct (Nat.eq_dec j n) as [->|]; [|apply HP; lia].
           intros Hin. now apply Hr in Hin.
  - exists 0%nat. repeat split; try lia; easy.
  - now rewrite Nat.sub_diag, Nat.sub_0_r.
Qed.

(** ** strstr *)
Lemma occurs_nth s t i : occurs s t i <->
  (i + length t <= length s)%nat /\ forall j, (j < length t)%nat -> nth (i + j) s 0 = nth j t 0.
Proof.
  split.
  - intros (a & b & -> & <-). rewrite !app_length. split; [lia|].
    intros j Hj. rewrite app_nth2 by lia. replace (length a + j - length a)%nat with j by lia.
    now rewrite app_nth1.
  - intros (Hl & Hn). exists (firstn i s), (skipn (i + length t) s). split; [|rewrite firstn_length; lia].
    rewrite <- (firstn_skipn i s) at 1. f_equal.
    rewrite <- (firstn_skipn (length t) (skipn i s)) at 1.
    rewrite skipn_skipn_z. f_equal.
    apply (nth_ext _ _ 0 0).
    + rewrite firstn_length, skipn_length. lia.
    + intros j Hj. rewrite firstn_length in Hj. rewrite nth_firstn_lt by lia. rewrite nth_skipn. apply Hn. lia.
Qed.

Definition match_end (s t : list Z) (i : nat) : nat :=
  let h := lcp (skipn i s) t in
  if (h =? length t)%nat then i else if (i + h =? length s)%nat then length s else S (i + h).

Lemma strstr_one_lemma d m1 m2 p1 p2 s t i : cstr m1 p1 s -> cstr m2 p2 t -> (i <= length s)%nat ->
  (depth_bound (length t) <= d)%nat ->
  strstr_one d m1 m2 (p1 + i) p2 = Ok (p1 + match_end s t i)%nat.
Proof.
  intros Hs Ht Hi Hd. unfold strstr_one.
  destruct (lcp_spec (skipn i s) t) as (H1 & H2 & H3 & H4 & _).
  rewrite skipn_length in H1, H4. 
  assert (H3' : forall j, (j < lcp (skipn i s) t)%nat -> nth (i + j) s 0 = nth j t 0).
  { intros j Hj. rewrite <- H3 by exact Hj. now rewrite nth_skipn. }
  rewrite nth_skipn in H4.
  unfold match_end. set (h := lcp (skipn i s) t) in *. clear H3.
  apply wp_det. apply wp_bind.
  apply (dbl_rule _ _ (fun '(q1, q2, f) =>
      f = true /\ q1 = (p1 + (if (h =? length t)%nat then i else if (i + h =? length s)%nat then length s else S (i + h)))%nat
      \/ f = false /\ exists j, q1 = (p1 + i + j)%nat /\ q2 = (p2 + j)%nat /\ (j <= h)%nat)
    (fun '(q1, q2, f) => if f : bool then 0%nat else (length t - (q2 - p2))%nat)); [| | |].
  - intros [[q1 q2] []] s'.
    + intros [= <-]. reflexivity.
    + destruct (nul m2 q2) as [[]| |] eqn:E; cbn [bind]; try discriminate.
      * intros [= <-]. reflexivity.
      * destruct (nul m1 q1) as [[]| |] eqn:E'; cbn [bind]; try discriminate.
        intros [= <-]. reflexivity.
  - intros [[q1 q2] f] [(-> & ->)|(-> & j & -> & -> & Hj)].
    + left. eexists. split; [reflexivity|]. reflexivity.
    + rewrite (nul_s m2 p2 t) by (assumption || lia). cbn [bind].
      destruct (Nat.eqb_spec j (length t)) as [Et|Et].
      * left. eexists. split; [reflexivity|]. cbn [wp]. now replace (h =? length t)%nat with true by lia.
      * rewrite <- Nat.add_assoc. rewrite (nul_s m1 p1 s) by (assumption || lia). cbn [bind].
        destruct (Nat.eqb_spec (i + j) (length s)) as [Es|Es].
        -- left. eexists. split; [reflexivity|]. cbn [wp]. assert (j = h) by lia. subst j.
           replace (h =? length t)%nat with false by lia. replace (i + h =? length s)%nat with true by lia. lia.
        -- right. split; [reflexivity|].
           rewrite (rd_s m1 p1 s) by (assumption || lia). rewrite (rd_s m2 p2 t) by (assumption || lia). cbn [bind].
           destruct (Z.eqb_spec (nth (i + j) s 0) (nth j t 0)) as [E|E]; cbn [negb wp].
           ++ split; [|lia]. right. split; [reflexivity|]. exists (S j). repeat split; try lia.
              destruct (Nat.eq_dec j h) as [->|]; [|lia]. exfalso. apply H4; lia.
           ++ split; [|lia]. left. split; [reflexivity|].
              assert (j = h) by (destruct (Nat.lt_ge_cases j h) as [L|L]; [now specialize (H3' j L)|lia]). subst j.
              replace (h =? length t)%nat with false by lia. replace (i + h =? length s)%nat with false by lia. lia.
  - right. split; [reflexivity|]. exists 0%nat. repeat split; lia.
  - now rewrite Nat.sub_diag, Nat.sub_0_r.
Qed.

Lemma match_end_spec s t i : t <> [] -> (i < length s)%nat ->
  (match_end s t i = i /\ occurs s t i) \/
  (match_end s t i = length s /\ forall j, (i <= j)%nat -> ~ occurs s t j) \/
  (i < match_end s t i < length s /\ ~ occurs s t i)%nat.
Proof.
  intros Ht Hi. unfold match_end.
  destruct (lcp_spec (skipn i s) t) as (H1 & H2 & H3 & H4 & _).
  rewrite skipn_length in H1, H4. 
  assert (H3' : forall j, (j < lcp (skipn i s) t)%nat -> nth (i + j) s 0 = nth j t 0).
  { intros j Hj. rewrite <- H3 by exact Hj. now rewrite nth_skipn. }
  rewrite nth_skipn in H4. set (h := lcp (skipn i s) t) in *. clear H3.
  assert (Hl : (0 < length t)%nat) by (destruct t; [easy|cbn; lia]).
  destruct (Nat.eqb_spec h (length t)) as [Et|Et].
  - left. split; [reflexivity|]. apply occurs_nth. split; [lia|]. intros j Hj. apply H3'. lia.
  - right. destruct (Nat.eqb_spec (i + h) (length s)) as [Es|Es].
    + left. split; [reflexivity|]. intros j Hj (Ho & _) % occurs_nth. lia.
    + assert (No : ~ occurs s t i).
      { intros (Ho & Hn) % occurs_nth. apply H4; [lia|lia|]. apply Hn. lia. }
      destruct (Nat.eq_dec (S (i + h)) (length s)) as [E|E].
      * left. split; [exact E|]. intros j Hj Ho.
        destruct (Nat.eq_dec j i) as [->|]; [now apply No|]. apply occurs_nth in Ho. lia.
      * right. split; [lia|exact No].
Qed.

Lemma strstr_lemma d d2 m1 m2 p1 p2 s t : cstr m1 p1 s -> cstr m2 p2 t -> s <> [] \/ t <> [] ->
  (depth_bound (length s) <= d)%nat -> (depth_bound (length t) <= d2)%nat ->
  exists r, strstr d d2 m1 m2 p1 p2 = Ok (option_map (Nat.add p1) r) /\ first_occurrence s t r.
Proof.
  intros Hs Ht Hne Hd Hd2. unfold strstr, strstr_detail.
  pose proof (nul_s m2 p2 t 0 Ht ltac:(lia)) as N2. rewrite Nat.add_0_r in N2. rewrite N2. cbn [bind]. clear N2.
  destruct (Nat.eqb_spec 0 (length t)) as [E|E].
  { destruct t; [|discriminate]. destruct s as [|x s]; [now destruct Hne|]. unfold str_find_check.
    pose proof (nul_s m1 p1 (x :: s) 0 Hs ltac:(lia)) as N1. rewrite Nat.add_0_r in N1. cbn [bind]. rewrite N1.
    cbn [bind Nat.eqb length]. exists (Some 0%nat). cbn [option_map]. rewrite Nat.add_0_r. split; [reflexivity|].
    split; [now exists [], (x :: s)|lia]. }
  assert (Ht' : t <> []) by (intros ->; now apply E). clear Hne.
  assert (Hl : (0 < length t)%nat) by lia.
  match goal with |- exists r, bind ?m ?f = _ /\ _ => cut (wp m (fun q => exists i, q = (p1 + i)%nat /\ (i <= length s)%nat /\
    (if (i =? length s)%nat then forall j, ~ occurs s t j else occurs s t i /\ forall j, (j < i)%nat -> ~ occurs s t j))) end.
  { intros W. apply wp_out in W. destruct W as (q & -> & i & -> & Hi & Ho). cbn [bind]. unfold str_find_check.
    rewrite (nul_s m1 p1 s) by assumption. cbn [bind]. destruct (i =? length s)%nat.
    - exists None. split; [reflexivity|exact Ho].
    - exists (Some i). split; [reflexivity|exact Ho]. }
  apply wp_bind.
  apply (dbl_rule _ _ (fun '(q, f) => exists i, q = (p1 + i)%nat /\ (i <= length s)%nat /\
      (forall j, (j < i)%nat -> ~ occurs s t j) /\
      (f = true -> if (i =? length s)%nat then forall j, ~ occurs s t j else occurs s t i))
    (fun '(q, f) => if f : bool then 0%nat else (length s - (q - p1))%nat)); [| | |].
  - intros [q []] s'; cbn [bind].
    + intros [= <-]. reflexivity.
    + destruct (nul m1 q) as [[]| |] eqn:E'; cbn [bind]; try discriminate.
      intros [= <-]. now rewrite E'.
  - intros [q f] (i & -> & Hi & HP & Hf). destruct f.
    + left. eexists. split; [reflexivity|]. cbn [fst wp]. specialize (Hf eq_refl). exists i. repeat split; auto.
      destruct (i =? length s)%nat; auto.
    + rewrite (nul_s m1 p1 s) by assumption. cbn [bind].
      destruct (Nat.eqb_spec i (length s)) as [Ei|Ei].
      * left. eexists. split; [reflexivity|]. cbn [fst wp]. exists i. repeat split; auto.
        replace (i =? length s)%nat with true by lia. intros j Ho.
        destruct (Nat.lt_ge_cases j i) as [L|L]; [now apply (HP j)|]. apply occurs_nth in Ho. lia.
      * right. split; [reflexivity|].
        rewrite (strstr_one_lemma d2 m1 m2 p1 p2 s t i) by assumption. cbn [bind].
        unfold strstr_impl_fork. cbn [fst].
        destruct (match_end_spec s t i Ht' ltac:(lia)) as [(Em & Ho)|[(Em & Ho)|(Em & Ho)]].
        -- rewrite Em, Nat.eqb_refl. cbn [bind wp]. split; [|lia]. exists i. repeat split; auto.
           intros _. now replace (i =? length s)%nat with false by lia.
        -- rewrite Em. replace (p1 + length s =? p1 + i)%nat with false by lia.
           rewrite (nul_s m1 p1 s) by (assumption || lia). rewrite Nat.eqb_refl. cbn [bind wp]. split; [|lia].
           assert (No : forall j, ~ occurs s t j) by (intros j; destruct (Nat.lt_ge_cases j i); auto).
           exists (length s). repeat split; auto. intros _. now rewrite Nat.eqb_refl.
        -- replace (p1 + match_end s t i =? p1 + i)%nat with false by lia.
           rewrite (nul_s m1 p1 s) by (assumption || lia).
           replace (match_end s t i =? length s)%nat with false by lia. cbn [bind wp]. split; [|lia].
           exists (S i). repeat split; try lia; try easy.
           intros j Hj. destruct (Nat.eq_dec j i) as [->|]; [exact Ho|apply HP; lia].
  - exists 0%nat. repeat split; try lia; easy.
  - now rewrite Nat.sub_diag, Nat.sub_0_r.
Qed.
