(** SHA-1: streaming, padding, the digest. *)
From Coq Require Import List Arith ZArith Bool Lia.
From Verif Require Import Base BitModel ShaModel ShaSpec SearchProof ShaProof.
Import ListNotations.
Open Scope Z_scope.

Local Arguments compress : simpl never.
Local Opaque compress.

(** ** copy_into *)
Lemma copy_into_eq a i xs : (i + length xs <= length a)%nat ->
  copy_into a i xs = firstn i a ++ xs ++ skipn (i + length xs) a.
Proof.
  intros H. unfold copy_into. apply firstn_all2. rewrite !app_length, firstn_length, skipn_length. lia.
Qed.

Lemma copy_into_length a i xs : (i + length xs <= length a)%nat -> length (copy_into a i xs) = length a.
Proof. intros H. rewrite copy_into_eq, !app_length, firstn_length, skipn_length; lia. Qed.

Lemma Forall_firstn' {A} (P : A -> Prop) n l : Forall P l -> Forall P (firstn n l).
Proof. intros H. rewrite <- (firstn_skipn n l) in H. now apply Forall_app in H. Qed.
Lemma Forall_skipn' {A} (P : A -> Prop) n l : Forall P l -> Forall P (skipn n l).
Proof. intros H. rewrite <- (firstn_skipn n l) in H. now apply Forall_app in H. Qed.

Lemma copy_into_bytes a i xs : Forall is_byte a -> Forall is_byte xs -> Forall is_byte (copy_into a i xs).
Proof.
  intros Ha Hx. unfold copy_into. apply Forall_firstn', Forall_app. split.
  - now apply Forall_firstn'.
  - apply Forall_app. split; [exact Hx|]. now apply Forall_skipn'.
Qed.

Lemma copy_into_nil a i : (i <= length a)%nat -> copy_into a i [] = a.
Proof.
  intros H. rewrite copy_into_eq by (cbn [length]; lia). cbn [app length]. rewrite Nat.add_0_r. apply firstn_skipn.
Qed.

Lemma upd_app_eq {A} (a b : list A) x y : upd (a ++ x :: b) (length a) y = a ++ y :: b.
Proof. induction a as [|z t IH]; cbn; [reflexivity|]. now rewrite IH. Qed.

Lemma upd_copy_into (a : list Z) i x : (i < length a)%nat -> upd a i x = copy_into a i [x].
Proof.
  intros H. rewrite copy_into_eq by (cbn [length]; lia). cbn [length app].
  replace (i + 1)%nat with (S i) by lia.
  rewrite <- (firstn_skipn i a) at 1.
  rewrite (skipn_nth_error a i (nth i a 0)) by (apply nth_error_nth_d; exact H).
  assert (L : length (firstn i a) = i) by (rewrite firstn_length; lia).
  pose proof (upd_app_eq (firstn i a) (skipn (S i) a) (nth i a 0) x) as U. rewrite L in U. exact U.
Qed.

Lemma skipn_skipn' {A} (l : list A) n m : skipn n (skipn m l) = skipn (m + n) l.
Proof. revert l. induction m as [|m IH]; intros l; [reflexivity|]. destruct l; [now rewrite !skipn_nil|]. apply IH. Qed.

Lemma copy_into_snoc (a : list Z) i xs x : (i + length xs < length a)%nat ->
  copy_into (copy_into a i xs) (i + length xs) [x] = copy_into a i (xs ++ [x]).
Proof.
  intros H. rewrite (copy_into_eq (copy_into a i xs)) by (rewrite copy_into_length; cbn [length]; lia).
  rewrite !copy_into_eq by (rewrite ?app_length; cbn [length]; lia).
  assert (L : length (firstn i a ++ xs) = (i + length xs)%nat) by (rewrite app_length, firstn_length; lia).
  rewrite (app_assoc (firstn i a) xs (skipn _ a)).
  rewrite firstn_app, L, Nat.sub_diag. cbn [firstn]. rewrite app_nil_r.
  rewrite (firstn_all2 (firstn i a ++ xs)) by lia.
  rewrite skipn_app, L.
  rewrite (skipn_all2 (firstn i a ++ xs)) by (rewrite L; cbn; lia). cbn [app length].
  rewrite skipn_skipn'. rewrite app_length. cbn [length].
  rewrite <- !app_assoc. cbn [app].
  do 4 f_equal. lia.
Qed.

(** ** The state after each byte *)
Definition tup (h : list Z) : Z * Z * Z * Z * Z :=
  (nth 0 h 0, nth 1 h 0, nth 2 h 0, nth 3 h 0, nth 4 h 0).

Lemma tup_list5 v : tup (list5 v) = v.
Proof. destruct v as [[[[a b] c] d] e]. reflexivity. Qed.

Definition wf (s : sha1) : Prop :=
  (exists v, h_ s = list5 v /\ vwords v) /\ length (block_ s) = 64%nat /\ Forall is_byte (block_ s) /\
  (block_byte_index_ s < 64)%nat /\ 0 <= bit_count_ s < 2 ^ 64.

Definition after (h b : list Z) (i : nat) (bc : Z) : sha1 :=
  if (i =? 64)%nat then Sha1 (list5 (compress (tup h) b)) b 0 bc else Sha1 h b i bc.

Definition pstep (s : sha1) (x : Z) : sha1 :=
  after (h_ s) (upd (block_ s) (block_byte_index_ s) x) (block_byte_index_ s + 1) (add64 (bit_count_ s) 8).

Lemma process_ok md h b i bc v : h = list5 v -> vwords v -> length b = 64%nat -> Forall is_byte b ->
  process md h b i bc = Ok (after h b i bc).
Proof.
  intros -> Hv Lb Bb. unfold process, after. destruct (Nat.eqb_spec i 64) as [->|N]; cbn [negb]; [|reflexivity].
  rewrite tup_list5. now apply c_process_block0_ok.
Qed.

Lemma after_wf h b i bc v : h = list5 v -> vwords v -> length b = 64%nat -> Forall is_byte b ->
  (i <= 64)%nat -> 0 <= bc < 2 ^ 64 -> wf (after h b i bc).
Proof.
  intros -> Hv Lb Bb Hi Hc. unfold after, wf. destruct (Nat.eqb_spec i 64) as [->|N];
    cbn [h_ block_ block_byte_index_ bit_count_].
  - split; [|repeat split; auto; lia]. eexists. split; [reflexivity|apply compress_words].
  - split; [exists v; auto|]. repeat split; auto; lia.
Qed.

Lemma add64_range x y : 0 <= add64 x y < 2 ^ 64.
Proof. unfold add64. rewrite conv_u64. apply Z.mod_pos_bound. reflexivity. Qed.

Lemma Forall_upd (P : Z -> Prop) l i x : Forall P l -> P x -> Forall P (upd l i x).
Proof.
  intros H Hx. revert i. induction H as [|y t Hy Ht IH]; intros [|i]; cbn; constructor; auto.
Qed.

Lemma pstep_wf s x : wf s -> is_byte x -> wf (pstep s x).
Proof.
  intros ((v & Hh & Hv) & Lb & Bb & Hi & Hc) Hx. unfold pstep.
  apply after_wf with v; auto; [now rewrite upd_length'|now apply Forall_upd|lia|apply add64_range].
Qed.

Lemma c_process_byte_ok md s x : wf s -> is_byte x -> c_process_byte md s x = Ok (pstep s x).
Proof.
  intros ((v & Hh & Hv) & Lb & Bb & Hi & Hc) Hx. unfold c_process_byte, pstep.
  rewrite wr_upd by lia. cbn [bind]. apply process_ok with v; auto; [now rewrite upd_length'|now apply Forall_upd].
Qed.

Lemma m_process_byte_ok md s x : wf s -> is_byte x -> m_process_byte md s x = Ok (pstep s x).
Proof.
  intros ((v & Hh & Hv) & Lb & Bb & Hi & Hc) Hx. unfold m_process_byte, m_process_byte_impl, pstep, after.
  rewrite wr_upd by lia. cbn [bind].
  destruct (Nat.eqb_spec (block_byte_index_ s + 1) 64) as [E|N]; [|reflexivity].
  rewrite Hh, m_process_block0_ok; [|now rewrite upd_length'|now apply Forall_upd|exact Hv].
  cbn [bind h_ block_ block_byte_index_ bit_count_]. now rewrite tup_list5.
Qed.

Definition feed (s : sha1) (xs : list Z) : sha1 := fold_left pstep xs s.

Lemma feed_wf xs : forall s, wf s -> Forall is_byte xs -> wf (feed s xs).
Proof.
  induction xs as [|x t IH]; intros s H F; [exact H|]. inversion F; subst.
  change (wf (feed (pstep s x) t)). apply IH; [now apply pstep_wf|assumption].
Qed.

Lemma m_process_block_ok md xs : forall s, wf s -> Forall is_byte xs -> m_process_block md s xs = Ok (feed s xs).
Proof.
  induction xs as [|x t IH]; intros s H F; [reflexivity|]. inversion F; subst. cbn [m_process_block].
  rewrite m_process_byte_ok by assumption. cbn [bind].
  rewrite IH by (try apply pstep_wf; assumption). reflexivity.
Qed.

(** Bytes that do not go past the end of the buffer *)
Lemma add64_assoc x a b : add64 (add64 x a) b = add64 x (a + b).
Proof. unfold add64. rewrite !conv_u64, Z.add_mod_idemp_l by discriminate. f_equal. lia. Qed.

Lemma feed_small xs : forall s, wf s -> (block_byte_index_ s + length xs <= 64)%nat ->
  feed s xs = after (h_ s) (copy_into (block_ s) (block_byte_index_ s) xs) (block_byte_index_ s + length xs)
    (add64 (bit_count_ s) (Z.of_nat (length xs) * 8)).
Proof.
  induction xs as [|x xs IH] using rev_ind; intros s H Hl.
  - destruct H as ((v & Hh & Hv) & Lb & Bb & Hi & Hc). unfold feed, after. cbn [fold_left length].
    rewrite Nat.add_0_r, copy_into_nil by lia. destruct (Nat.eqb_spec (block_byte_index_ s) 64); [lia|].
    replace (add64 _ _) with (bit_count_ s); [now destruct s|].
    unfold add64. rewrite conv_u64. change (Z.of_nat 0 * 8) with 0. rewrite Z.add_0_r. symmetry. apply Z.mod_small, Hc.
  - rewrite app_length in *. cbn [length] in *.
    pose proof H as ((v & Hh & Hv) & Lb & Bb & Hi & Hc).
    unfold feed. rewrite fold_left_app. cbn [fold_left]. fold (feed s xs). rewrite IH by (auto; lia).
    unfold after at 1. destruct (Nat.eqb_spec (block_byte_index_ s + length xs) 64); [lia|].
    unfold pstep. cbn [h_ block_ block_byte_index_ bit_count_].
    rewrite upd_copy_into by (rewrite copy_into_length; lia).
    rewrite copy_into_snoc by lia. rewrite add64_assoc.
    f_equal; [lia|]. f_equal. lia.
Qed.

Lemma process_block_impl_ok md r : forall s args rest, wf s -> Forall is_byte args -> Forall is_byte rest ->
  (block_byte_index_ s + length args <= 64)%nat ->
  (2 * length rest + (if (length args =? 0)%nat then 1 else 2) <= r)%nat ->
  process_block_impl md r s args rest = Ok (feed s (args ++ rest)).
Proof.
  induction r as [|r IH]; intros s args rest H Fa Fr Hl Hr; [destruct (_ =? _)%nat; lia|].
  pose proof H as ((v & Hh & Hv) & Lb & Bb & Hi & Hc).
  cbn [process_block_impl].
  assert (PA : forall a i bc, a = copy_into (block_ s) (block_byte_index_ s) args ->
    process md (h_ s) a i bc = Ok (after (h_ s) a i bc)).
  { intros a i bc ->. apply process_ok with v; auto; [rewrite copy_into_length; lia|now apply copy_into_bytes]. }
  assert (FA := feed_small args s H Hl).
  assert (W1 : wf (feed s args)) by (now apply feed_wf).
  destruct (Nat.eqb_spec (length args) 64) as [E|N].
  - assert (I0 : block_byte_index_ s = 0%nat) by lia.
    assert (C : args = copy_into (block_ s) (block_byte_index_ s) args).
    { rewrite I0, copy_into_eq by lia. cbn [firstn app]. rewrite Nat.add_0_l, skipn_all2 by lia. now rewrite app_nil_r. }
    rewrite PA by exact C. rewrite C at 1. rewrite <- C in FA at 1.
    assert (EQ : after (h_ s) args 64 (add64 (bit_count_ s) (64 * 8)) = feed s args).
    { rewrite FA, I0, E. reflexivity. }
    rewrite <- C, EQ.
    destruct rest as [|x rest]; [now rewrite app_nil_r|]. cbn [bind].
    rewrite IH; auto.
    + unfold feed. rewrite !fold_left_app. reflexivity.
    + cbn [length]. destruct W1 as (_ & _ & _ & W & _). lia.
    + destruct (Nat.eqb_spec (length args) 0); cbn [length Nat.eqb] in *; lia.
  - rewrite PA by reflexivity. rewrite <- FA.
    destruct rest as [|x rest]; [now rewrite app_nil_r|].
    destruct (Nat.eqb_spec (block_byte_index_ s + length args) 64) as [E|N1]; cbn [bind].
    + rewrite IH; auto.
      * unfold feed. rewrite !fold_left_app. reflexivity.
      * cbn [length]. destruct W1 as (_ & _ & _ & W & _). lia.
      * destruct (Nat.eqb_spec (length args) 0); cbn [length Nat.eqb] in *; lia.
    + inversion Fr; subst. rewrite IH; auto.
      * now rewrite <- app_assoc.
      * apply Forall_app. split; auto.
      * rewrite app_length. cbn [length]. lia.
      * rewrite app_length. cbn [length] in *.
        destruct (Nat.eqb_spec (length args) 0), (Nat.eqb_spec (length args + 1) 0); lia.
Qed.

Lemma c_process_block_ok md r s xs : wf s -> Forall is_byte xs -> (2 * length xs < r)%nat ->
  c_process_block md r s xs = Ok (feed s xs).
Proof.
  intros H F Hr. unfold c_process_block. rewrite process_block_impl_ok; auto.
  - cbn [length]. destruct H as (_ & _ & _ & W & _). lia.
  - cbn [length Nat.eqb]. lia.
Qed.

(** ** The message behind a state *)
Lemma blocks_app_lt {A} n (l m : list A) : (0 < n)%nat -> ((length l + length m) / n = length l / n)%nat ->
  blocks n (l ++ m) = blocks n l.
Proof.
  intros Hn H. unfold blocks. rewrite app_length, H. apply map_ext_in. intros i Hi. apply in_seq in Hi.
  unfold block_of. assert (n * S i <= length l)%nat.
  { pose proof (Nat.mul_div_le (length l) n ltac:(lia)). nia. }
  rewrite skipn_app, firstn_app, skipn_length.
  replace (n - (length l - n * i))%nat with 0%nat by nia. cbn [firstn]. apply app_nil_r.
Qed.

Lemma blocks_app_eq {A} n (l m : list A) : (0 < n)%nat -> (length l + length m = n * (length l / n + 1))%nat ->
  blocks n (l ++ m) = blocks n l ++ [skipn (n * (length l / n)) (l ++ m)].
Proof.
  intros Hn H. unfold blocks. rewrite app_length, H.
  replace ((n * (length l / n + 1)) / n)%nat with (S (length l / n))%nat
    by (rewrite Nat.mul_comm, Nat.div_mul by lia; lia).
  rewrite seq_S, map_app. cbn [map Nat.add]. f_equal.
  - apply map_ext_in. intros i Hi. apply in_seq in Hi.
    unfold block_of. assert (n * S i <= length l)%nat.
    { pose proof (Nat.mul_div_le (length l) n ltac:(lia)). nia. }
    rewrite skipn_app, firstn_app, skipn_length.
    replace (n - (length l - n * i))%nat with 0%nat by nia. cbn [firstn]. apply app_nil_r.
  - unfold block_of. f_equal. apply firstn_all2. rewrite skipn_length, app_length. lia.
Qed.

Definition state_of (msg : list Z) := fold_left compress (blocks 64 msg) sha_init.

Definition repr (h b : list Z) (i : nat) (msg : list Z) : Prop :=
  length b = 64%nat /\ Forall is_byte b /\ h = list5 (state_of msg) /\
  i = (length msg mod 64)%nat /\ firstn i b = skipn (64 * (length msg / 64)) msg.

Lemma init_words : vwords sha_init.
Proof. unfold vwords, sha_init, is_word. lia. Qed.

Lemma state_words msg : vwords (state_of msg).
Proof.
  unfold state_of. destruct (blocks 64 msg) as [|b bs] using rev_ind; [apply init_words|].
  rewrite fold_left_app. cbn [fold_left]. apply compress_words.
Qed.

Lemma push h b i msg xs bc : repr h b i msg -> Forall is_byte xs -> (i + length xs <= 64)%nat ->
  exists h' i', after h (copy_into b i xs) (i + length xs) bc = Sha1 h' (copy_into b i xs) i' bc /\
    repr h' (copy_into b i xs) i' (msg ++ xs).
Proof.
  intros (Lb & Bb & Hh & Hi & Hf) Fx Hl. unfold after.
  assert (D := Nat.div_mod (length msg) 64 ltac:(lia)). rewrite <- Hi in D.
  assert (I : (i < 64)%nat) by (rewrite Hi; apply Nat.mod_upper_bound; lia).
  assert (LC : length (copy_into b i xs) = 64%nat) by (rewrite copy_into_length; lia).
  assert (BC : Forall is_byte (copy_into b i xs)) by (now apply copy_into_bytes).
  assert (FC : firstn (i + length xs) (copy_into b i xs) = skipn (64 * (length msg / 64)) (msg ++ xs)).
  { rewrite skipn_app. replace (64 * (length msg / 64) - length msg)%nat with 0%nat by lia. cbn [skipn].
    rewrite <- Hf, copy_into_eq by lia. rewrite app_assoc.
    assert (L : length (firstn i b ++ xs) = (i + length xs)%nat) by (rewrite app_length, firstn_length; lia).
    rewrite <- L at 1. rewrite firstn_app, Nat.sub_diag. cbn [firstn]. rewrite app_nil_r.
    apply firstn_all2. lia. }
  destruct (Nat.eqb_spec (i + length xs) 64) as [E|N].
  - assert (Q : (length (msg ++ xs) = 64 * (length msg / 64 + 1))%nat) by (rewrite app_length; lia).
    exists (list5 (compress (tup h) (copy_into b i xs))), 0%nat. split; [reflexivity|].
    split; [exact LC|]. split; [exact BC|]. split.
    + rewrite app_length in Q. unfold state_of. rewrite blocks_app_eq by (exact Q || lia).
      rewrite fold_left_app. cbn [fold_left]. rewrite Hh, tup_list5. do 2 f_equal.
      rewrite <- FC, firstn_all2 by lia. reflexivity.
    + split.
      * rewrite Q, Nat.mul_comm, Nat.mod_mul by lia. reflexivity.
      * cbn [firstn]. symmetry. apply skipn_all2. rewrite Q.
        rewrite (Nat.mul_comm 64 (length msg / 64 + 1)), Nat.div_mul by lia. lia.
  - assert (Q : ((length msg + length xs) / 64 = length msg / 64)%nat).
    { symmetry. apply Nat.div_unique with (i + length xs)%nat; lia. }
    exists h, (i + length xs)%nat. split; [reflexivity|].
    split; [exact LC|]. split; [exact BC|]. split.
    + unfold state_of. rewrite blocks_app_lt by (exact Q || lia). exact Hh.
    + rewrite app_length, Q. split; [|exact FC].
      apply Nat.mod_unique with (length msg / 64)%nat; lia.
Qed.

(** The state stands for the message [msg] *)
Definition stands (s : sha1) (msg : list Z) : Prop :=
  repr (h_ s) (block_ s) (block_byte_index_ s) msg /\ bit_count_ s = (8 * Z.of_nat (length msg)) mod 2 ^ 64.

Lemma stands_wf s msg : stands s msg -> wf s.
Proof.
  intros ((Lb & Bb & Hh & Hi & Hf) & Hc). split; [exists (state_of msg); split; [exact Hh|apply state_words]|].
  split; [exact Lb|]. split; [exact Bb|]. split; [rewrite Hi; apply Nat.mod_upper_bound; lia|].
  rewrite Hc. apply Z.mod_pos_bound. reflexivity.
Qed.

Lemma stands_new : stands sha1_new [].
Proof.
  split; [|reflexivity]. split; [reflexivity|]. split; [|repeat split].
  apply Forall_forall. intros x Hx. apply repeat_spec in Hx. subst x. unfold is_byte. lia.
Qed.

Lemma stands_reset s : wf s -> stands (reset s) [].
Proof.
  intros (_ & Lb & Bb & _). split; [|reflexivity]. repeat split; cbn [reset h_ block_ block_byte_index_]; auto.
Qed.

Lemma stands_step s msg x : stands s msg -> is_byte x -> stands (pstep s x) (msg ++ [x]).
Proof.
  intros H Hx. pose proof (stands_wf _ _ H) as (_ & Lb & _ & Hi & _). destruct H as (R & Hc).
  unfold pstep. rewrite upd_copy_into by lia.
  destruct (push _ _ _ _ [x] (add64 (bit_count_ s) 8) R) as (h' & i' & E & R'); [auto|cbn [length]; lia|].
  cbn [length] in E. rewrite E. split; [exact R'|]. cbn [bit_count_].
  unfold add64. rewrite conv_u64, Hc, Z.add_mod_idemp_l by discriminate. f_equal. rewrite app_length. cbn [length]. lia.
Qed.

Lemma stands_feed xs : forall s msg, stands s msg -> Forall is_byte xs -> stands (feed s xs) (msg ++ xs).
Proof.
  induction xs as [|x t IH]; intros s msg H F; [now rewrite app_nil_r|]. inversion F; subst.
  change (stands (feed (pstep s x) t) (msg ++ x :: t)).
  replace (msg ++ x :: t) with ((msg ++ [x]) ++ t) by (now rewrite <- app_assoc).
  apply IH; [now apply stands_step|assumption].
Qed.

(** ** The digest *)
Lemma byte_at_ok t w s : sgn t = false -> (2 <= lg t)%nat -> 0 <= s < wid t -> 0 <= w < 2 ^ wid t ->
  byte_at t w s = Ok (w / 2 ^ s mod 2 ^ 8).
Proof.
  intros St Lt Hs Hw. unfold byte_at, shr.
  replace ((0 <=? s) && (s <? wid t)) with true by lia. cbn [bind].
  rewrite conv_u8. rewrite Z.shiftr_div_pow2 by lia. change 255 with (Z.ones 8).
  rewrite Z.land_ones by lia. now rewrite Z.mod_mod by discriminate.
Qed.

Lemma byte_at32 w s : In s [24; 16; 8; 0] -> is_word w -> byte_at u32 w s = Ok (w / 2 ^ s mod 2 ^ 8).
Proof. intros H Hw. apply byte_at_ok; [reflexivity|cbn; lia|change (wid u32) with 32; cbn in H; lia|exact Hw]. Qed.

Lemma byte_at64 w s : 0 <= s < 64 -> 0 <= w < 2 ^ 64 -> byte_at u64 w s = Ok (w / 2 ^ s mod 2 ^ 8).
Proof. intros H Hw. apply byte_at_ok; [reflexivity|cbn; lia|exact H|exact Hw]. Qed.

Lemma word_bytes_ok w : is_word w -> word_bytes w = Ok (be32 w).
Proof.
  intros H. unfold word_bytes. rewrite !byte_at32 by (auto; cbn; auto). reflexivity.
Qed.

Lemma make_value_ok s v : h_ s = list5 v -> vwords v ->
  make_value s = let '(h0, h1, h2, h3, h4) := v in Ok (be32 h0 ++ be32 h1 ++ be32 h2 ++ be32 h3 ++ be32 h4).
Proof.
  intros Hh Hv. unfold make_value. rewrite Hh. destruct v as [[[[a b] c] d] e]. destruct Hv as (H1&H2&H3&H4&H5).
  cbn [list5 rd nth_error bind]. rewrite !word_bytes_ok by assumption. reflexivity.
Qed.

Lemma byte_mod z : is_byte (z mod 2 ^ 8).
Proof. apply Z.mod_pos_bound. reflexivity. Qed.

Lemma div_mod_mod z n s : 0 <= s <= n - 8 -> (z mod 2 ^ n) / 2 ^ s mod 2 ^ 8 = z / 2 ^ s mod 2 ^ 8.
Proof.
  intros H. rewrite <- (Z.shiftr_div_pow2 (_ mod _)), <- (Z.shiftr_div_pow2 z) by lia.
  rewrite !mod_pow2_land by lia.
  apply Z.bits_inj'. intros i Hi. rewrite !Z.land_spec.
  destruct (Z.lt_ge_cases i 8) as [C|C].
  - rewrite !Z.shiftr_spec, Z.land_spec by lia. rewrite (Z.ones_spec_low n) by lia. now rewrite andb_true_r.
  - rewrite (Z.ones_spec_high 8) by lia. now rewrite !andb_false_r.
Qed.

Lemma be64_mod z : be64 (z mod 2 ^ 64) = be64 z.
Proof. unfold be64. cbn [map]. now rewrite !(div_mod_mod _ 64) by lia. Qed.

Lemma process_length_ok md s msg : repr (h_ s) (block_ s) (block_byte_index_ s) msg -> 0 <= bit_count_ s < 2 ^ 64 ->
  (block_byte_index_ s <= 56)%nat ->
  exists s', process_length md s = Ok s' /\
    repr (h_ s') (block_ s') (block_byte_index_ s') (msg ++ be64 (bit_count_ s)).
Proof.
  intros R Hc Hi. unfold process_length. rewrite !byte_at64 by lia. cbn [bind].
  change [_ / _ mod _; _; _; _; _; _; _; _] with (be64 (bit_count_ s)).
  destruct (push _ _ _ _ (be64 (bit_count_ s)) (bit_count_ s) R) as (h' & i' & E & R').
  { unfold be64. apply Forall_forall. intros x Hx. apply in_map_iff in Hx. destruct Hx as (? & <- & _). apply byte_mod. }
  { cbn. lia. }
  destruct R as (Lb & Bb & Hh & _).
  rewrite process_ok with (v := state_of msg); [|exact Hh|apply state_words| |].
  - change (length (be64 (bit_count_ s))) with 8%nat in E. rewrite E. eexists. split; [reflexivity|exact R'].
  - rewrite copy_into_length by (cbn; lia). exact Lb.
  - destruct R' as (_ & B & _). exact B.
Qed.

Lemma zero_bytes n : Forall is_byte (repeat 0 n).
Proof. apply Forall_forall. intros x Hx. apply repeat_spec in Hx. subst x. unfold is_byte. lia. Qed.

Lemma process_push md h b i msg xs bc j : repr h b i msg -> Forall is_byte xs -> j = (i + length xs)%nat -> (j <= 64)%nat ->
  exists s', process md h (copy_into b i xs) j bc = Ok s' /\ bit_count_ s' = bc /\
    repr (h_ s') (block_ s') (block_byte_index_ s') (msg ++ xs).
Proof.
  intros R Fx -> Hj. destruct (push _ _ _ _ xs bc R Fx Hj) as (h' & i' & E & R').
  pose proof R as (Lb & Bb & Hh & _).
  rewrite process_ok with (v := state_of msg); [|exact Hh|apply state_words| |].
  - rewrite E. eexists. split; [reflexivity|]. split; [reflexivity|exact R'].
  - rewrite copy_into_length; lia.
  - destruct R' as (_ & B & _). exact B.
Qed.

Lemma repr_idx h b i msg : repr h b i msg -> i = (length msg mod 64)%nat.
Proof. intros (_ & _ & _ & E & _). exact E. Qed.

Lemma process_padding_ok md s msg : repr (h_ s) (block_ s) (block_byte_index_ s) msg ->
  exists s' k, process_padding md s = Ok s' /\ bit_count_ s' = bit_count_ s /\
    repr (h_ s') (block_ s') (block_byte_index_ s') (msg ++ repeat 0 k) /\
    (k < 64)%nat /\ ((length msg + k) mod 64 = 56)%nat.
Proof.
  intros R. unfold process_padding.
  assert (Hi := repr_idx _ _ _ _ R).
  assert (I : (block_byte_index_ s < 64)%nat) by (rewrite Hi; apply Nat.mod_upper_bound; lia).
  assert (D := Nat.div_mod (length msg) 64 ltac:(lia)). rewrite <- Hi in D.
  destruct (Nat.eqb_spec (block_byte_index_ s) 56) as [E|N].
  - exists s, 0%nat. cbn [repeat]. rewrite app_nil_r, Nat.add_0_r. repeat split; try apply R; lia.
  - destruct (Nat.ltb_spec 56 (block_byte_index_ s)) as [C|C].
    + destruct (process_push md _ _ _ msg (repeat 0 (64 - block_byte_index_ s)) (bit_count_ s) 64 R) as (s1 & E1 & C1 & R1);
        [apply zero_bytes|rewrite repeat_length; lia|lia|].
      rewrite E1. cbn [bind]. unfold process_padding_after.
      assert (I1 := repr_idx _ _ _ _ R1). rewrite app_length, repeat_length in I1.
      replace (length msg + (64 - block_byte_index_ s))%nat with ((length msg / 64 + 1) * 64)%nat in I1 by lia.
      rewrite Nat.mod_mul in I1 by lia.
      pose proof R1 as (L1 & B1 & H1 & _ & F1). rewrite I1 in F1.
      assert (R2 : repr (h_ s1) (repeat 0 64) 0 (msg ++ repeat 0 (64 - block_byte_index_ s))).
      { split; [apply repeat_length|]. split; [apply zero_bytes|]. split; [exact H1|]. split; [|exact F1].
        rewrite <- (repr_idx _ _ _ _ R1). auto. }
      destruct (process_push md _ _ _ _ (repeat 0 56) (bit_count_ s1) 56 R2) as (s2 & E2 & C2 & R3);
        [apply zero_bytes|now rewrite repeat_length|lia|].
      change (copy_into (repeat 0 64) 0 (repeat 0 56)) with (repeat 0 64) in E2. rewrite E2.
      exists s2, (64 - block_byte_index_ s + 56)%nat. split; [reflexivity|]. split; [congruence|].
      rewrite repeat_app, app_assoc. split; [exact R3|]. split; [lia|].
      symmetry. apply Nat.mod_unique with (length msg / 64 + 1)%nat; lia.
    + destruct (process_push md _ _ _ msg (repeat 0 (56 - block_byte_index_ s)) (bit_count_ s) 56 R) as (s1 & E1 & C1 & R1);
        [apply zero_bytes|rewrite repeat_length; lia|lia|].
      rewrite E1. exists s1, (56 - block_byte_index_ s)%nat. split; [reflexivity|]. split; [exact C1|].
      split; [exact R1|]. split; [lia|]. symmetry. apply Nat.mod_unique with (length msg / 64)%nat; lia.
Qed.

Lemma zeros_spec len : (zeros len < 64 /\ (len + 1 + zeros len) mod 64 = 56)%nat.
Proof.
  unfold zeros.
  assert (B := Z.mod_pos_bound (55 - Z.of_nat len) 64 ltac:(lia)).
  assert (D := Z.div_mod (55 - Z.of_nat len) 64 ltac:(lia)).
  set (z := (55 - Z.of_nat len) mod 64) in *. set (q := (55 - Z.of_nat len) / 64) in *.
  split; [lia|]. symmetry. apply Nat.mod_unique with (Z.to_nat (- q)); lia.
Qed.

Lemma zeros_unique len k : (k < 64)%nat -> ((len + 1 + k) mod 64 = 56)%nat -> k = zeros len.
Proof.
  intros Hk H. destruct (zeros_spec len) as (Z1 & Z2). set (z := zeros len) in *.
  assert (D1 := Nat.div_mod (len + 1 + k) 64 ltac:(lia)). assert (D2 := Nat.div_mod (len + 1 + z) 64 ltac:(lia)).
  rewrite H in D1. rewrite Z2 in D2. lia.
Qed.

Lemma checksum_ok md s msg : stands s msg -> checksum md s = Ok (sha1_digest msg).
Proof.
  intros H. pose proof (stands_wf _ _ H) as (_ & Lb & _ & Hi & _). destruct H as (R & Hc).
  unfold checksum, process_one. rewrite wr_upd by lia. cbn [bind]. rewrite upd_copy_into by lia.
  destruct (process_push md _ _ _ msg [0x80] (bit_count_ s) (block_byte_index_ s + 1) R) as (s1 & E1 & C1 & R1);
    [constructor; [unfold is_byte; lia|constructor]|reflexivity|lia|].
  rewrite E1. cbn [bind].
  destruct (process_padding_ok md s1 _ R1) as (s2 & k & E2 & C2 & R2 & Hk & Hm).
  rewrite E2. cbn [bind].
  rewrite app_length in Hm. cbn [length] in Hm. assert (K := zeros_unique _ _ Hk Hm). subst k.
  assert (I2 := repr_idx _ _ _ _ R2). rewrite !app_length, repeat_length in I2. cbn [length] in I2. rewrite Hm in I2.
  destruct (process_length_ok md s2 _ R2) as (s3 & E3 & R3).
  { rewrite C2, C1, Hc. apply Z.mod_pos_bound. reflexivity. }
  { lia. }
  rewrite E3. cbn [bind].
  pose proof R3 as (_ & _ & H3 & _).
  rewrite make_value_ok with (v := state_of ((((msg ++ [128]) ++ repeat 0 (zeros (length msg))) ++ be64 (bit_count_ s2))));
    [|exact H3|apply state_words].
  rewrite C2, C1, Hc, be64_mod. rewrite <- !app_assoc. unfold sha1_digest, state_of. fold (pad msg).
  destruct (fold_left compress _ _) as [[[[a b] c] d] e]. reflexivity.
Qed.

(** ** The theorems of ShaProps *)
Theorem make_sha1_ok md r msg : Forall is_byte msg -> (2 * length msg < r)%nat ->
  make_sha1 md r msg = Ok (sha1_digest msg).
Proof.
  intros F Hr. unfold make_sha1. rewrite c_process_block_ok; auto; [|apply (stands_wf _ _ stands_new)].
  cbn [bind]. apply checksum_ok. apply (stands_feed msg sha1_new [] stands_new F).
Qed.

Lemma feed_app s a b : feed s (a ++ b) = feed (feed s a) b.
Proof. apply fold_left_app. Qed.

Lemma feed_piece_ok md r s p : wf s -> Forall is_byte (piece_bytes p) -> (2 * length (piece_bytes p) < r)%nat ->
  feed_piece md r s p = Ok (feed s (piece_bytes p)).
Proof.
  intros W F Hr. destruct p as [x|xs|x|xs]; cbn [feed_piece piece_bytes] in *.
  - apply c_process_byte_ok; [exact W|now inversion F].
  - now apply c_process_block_ok.
  - apply m_process_byte_ok; [exact W|now inversion F].
  - now apply m_process_block_ok.
Qed.

Lemma feed_pieces_ok md r ps : forall s, wf s -> Forall is_byte (concat (map piece_bytes ps)) ->
  (2 * length (concat (map piece_bytes ps)) < r)%nat ->
  feed_pieces md r s ps = Ok (feed s (concat (map piece_bytes ps))).
Proof.
  induction ps as [|p ps IH]; intros s W F Hr; [reflexivity|].
  cbn [map concat feed_pieces] in *. apply Forall_app in F. destruct F as (F1 & F2). rewrite app_length in Hr.
  rewrite feed_piece_ok by (auto; lia). cbn [bind].
  rewrite IH; [now rewrite feed_app|now apply feed_wf|exact F2|lia].
Qed.

Theorem sha1_pieces_ok md r ps : Forall is_byte (concat (map piece_bytes ps)) ->
  (2 * length (concat (map piece_bytes ps)) < r)%nat ->
  exists s, feed_pieces md r sha1_new ps = Ok s /\
    feed_pieces md r sha1_new [ByBlock (concat (map piece_bytes ps))] = Ok s /\
    checksum md s = Ok (sha1_digest (concat (map piece_bytes ps))).
Proof.
  intros F Hr. eexists. split; [apply feed_pieces_ok; auto; apply (stands_wf _ _ stands_new)|].
  split.
  - cbn [feed_pieces feed_piece]. rewrite c_process_block_ok; auto; apply (stands_wf _ _ stands_new).
  - apply checksum_ok. apply (stands_feed _ sha1_new [] stands_new F).
Qed.

Theorem sha1_reset_ok md r ps s qs : Forall is_byte (concat (map piece_bytes ps)) ->
  (2 * length (concat (map piece_bytes ps)) < r)%nat ->
  feed_pieces md r sha1_new ps = Ok s ->
  Forall is_byte (concat (map piece_bytes qs)) -> (2 * length (concat (map piece_bytes qs)) < r)%nat ->
  exists s', feed_pieces md r (reset s) qs = Ok s' /\
    checksum md s' = Ok (sha1_digest (concat (map piece_bytes qs))).
Proof.
  intros F Hr E Fq Hq.
  assert (W : wf s).
  { rewrite feed_pieces_ok in E; auto; [|apply (stands_wf _ _ stands_new)]. injection E as <-.
    apply feed_wf; [apply (stands_wf _ _ stands_new)|exact F]. }
  assert (R := stands_reset s W).
  eexists. split; [apply feed_pieces_ok; auto; apply (stands_wf _ _ R)|].
  apply checksum_ok. apply (stands_feed _ (reset s) [] R Fq).
Qed.

Lemma bytes_check l : forallb (fun x => (0 <=? x) && (x <? 256)) l = true -> Forall is_byte l.
Proof.
  intros H. apply Forall_forall. intros x Hx. rewrite forallb_forall in H. specialize (H x Hx).
  unfold is_byte. lia.
Qed.
