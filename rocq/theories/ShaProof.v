(** SHA-1: one block. *)
From Coq Require Import List Arith ZArith Bool Lia.
From Verif Require Import Base BitModel ShaModel ShaSpec SearchProof.
Import ListNotations.
Open Scope Z_scope.

(** ** Words *)
Lemma conv_u8 z : conv u8 z = z mod 2 ^ 8.
Proof. reflexivity. Qed.
Lemma conv_u32 z : conv u32 z = z mod 2 ^ 32.
Proof. reflexivity. Qed.
Lemma conv_u64 z : conv u64 z = z mod 2 ^ 64.
Proof. reflexivity. Qed.

Lemma add32_eq x y : add32 x y = plus32 x y.
Proof. reflexivity. Qed.

Lemma mod_word z : is_word (z mod 2 ^ 32).
Proof. apply Z.mod_pos_bound. reflexivity. Qed.

Lemma plus32_word x y : is_word (plus32 x y).
Proof. apply mod_word. Qed.

Lemma plus32_swap a b c : plus32 (plus32 a b) c = plus32 (plus32 a c) b.
Proof. unfold plus32. rewrite !Z.add_mod_idemp_l by discriminate. f_equal. lia. Qed.

Lemma conv_i32_mod z : conv i32 z mod 2 ^ 32 = z mod 2 ^ 32.
Proof.
  unfold conv. change (wid i32) with 32. cbn [sgn i32].
  destruct (true && _).
  - change (z mod 2 ^ 32 - 2 ^ 32) with (z mod 2 ^ 32 - 2 ^ 32).
    replace (z mod 2 ^ 32 - 2 ^ 32) with (z mod 2 ^ 32 + (-1) * 2 ^ 32) by lia.
    rewrite Z.mod_add by discriminate. apply Z.mod_mod. discriminate.
  - apply Z.mod_mod. discriminate.
Qed.

Lemma mod_pow2_land z n : 0 <= n -> z mod 2 ^ n = Z.land z (Z.ones n).
Proof. intros H. now rewrite Z.land_ones. Qed.

Lemma lor_mod x y n : 0 <= n -> Z.lor x y mod 2 ^ n = Z.lor (x mod 2 ^ n) (y mod 2 ^ n).
Proof. intros H. rewrite !mod_pow2_land by exact H. apply Z.land_lor_distr_l. Qed.
Lemma land_mod x y n : 0 <= n -> Z.land x y mod 2 ^ n = Z.land (x mod 2 ^ n) (y mod 2 ^ n).
Proof.
  intros H. rewrite !mod_pow2_land by exact H. apply Z.bits_inj'. intros i Hi.
  rewrite !Z.land_spec. destruct (Z.testbit x i), (Z.testbit y i), (Z.testbit (Z.ones n) i); reflexivity.
Qed.
Lemma lxor_mod x y n : 0 <= n -> Z.lxor x y mod 2 ^ n = Z.lxor (x mod 2 ^ n) (y mod 2 ^ n).
Proof.
  intros H. rewrite !mod_pow2_land by exact H. apply Z.bits_inj'. intros i Hi.
  rewrite !Z.land_spec, !Z.lxor_spec, !Z.land_spec.
  destruct (Z.testbit x i), (Z.testbit y i), (Z.testbit (Z.ones n) i); reflexivity.
Qed.

Lemma word_mod x : is_word x -> x mod 2 ^ 32 = x.
Proof. intros H. apply Z.mod_small. exact H. Qed.

Lemma lor_word x y : is_word x -> is_word y -> is_word (Z.lor x y).
Proof. intros Hx Hy. rewrite <- (word_mod x), <- (word_mod y), <- lor_mod by (auto; lia). apply mod_word. Qed.
Lemma land_word x y : is_word x -> is_word y -> is_word (Z.land x y).
Proof. intros Hx Hy. rewrite <- (word_mod x), <- (word_mod y), <- land_mod by (auto; lia). apply mod_word. Qed.
Lemma lxor_word x y : is_word x -> is_word y -> is_word (Z.lxor x y).
Proof. intros Hx Hy. rewrite <- (word_mod x), <- (word_mod y), <- lxor_mod by (auto; lia). apply mod_word. Qed.

Lemma cpl32 x : is_word x -> cpl u32 x = not32 x.
Proof.
  unfold is_word. intros H. unfold cpl, not32. rewrite conv_u32. unfold Z.lnot.
  symmetry. apply Z.mod_unique with (-1); [left; lia|lia].
Qed.

Lemma not32_word x : is_word x -> is_word (not32 x).
Proof. unfold is_word, not32. lia. Qed.

Lemma div_word x n : is_word x -> 0 <= n -> is_word (x / 2 ^ n).
Proof.
  unfold is_word. intros H Hn. assert (0 < 2 ^ n) by (apply Z.pow_pos_nonneg; lia).
  split; [apply Z.div_pos; lia|]. apply Z.div_lt_upper_bound; [lia|]. nia.
Qed.

Lemma rol32_word n x : is_word x -> 0 <= n <= 32 -> is_word (rol32 n x).
Proof. intros H Hn. unfold rol32. apply lor_word; [apply mod_word|apply div_word; [exact H|lia]]. Qed.

Lemma rotl32_ok md x n : is_word x -> 0 < n < 32 -> rotl 2 md u32 x n = Ok (rol32 n x).
Proof.
  intros H Hn. unfold rotl, shl, shlr, shr.
  change (promote 2 u32) with u32. change (promote 2 (uns u32)) with u32. change (uns u32) with u32.
  change (wid u32) with 32. cbn [sgn u32 andb].
  replace ((0 <=? n) && (n <? 32)) with true by lia. cbn [bind].
  replace ((0 <=? 32 - n) && (32 - n <? 32)) with true by lia. cbn [bind].
  rewrite !conv_u32. rewrite (word_mod x H), Z.shiftr_div_pow2 by lia.
  rewrite (word_mod (x / _)) by (apply div_word; [exact H|lia]).
  rewrite word_mod by (apply (rol32_word n x); [exact H|lia]). reflexivity.
Qed.

(** ** Words of a block *)
Lemma lor_add x y n : 0 <= n -> 0 <= y < 2 ^ n -> Z.lor (x * 2 ^ n) y = x * 2 ^ n + y.
Proof.
  intros Hn Hy.
  assert (E : Z.land (x * 2 ^ n) y = 0).
  { rewrite <- (Z.mod_small y (2 ^ n)) by exact Hy. rewrite mod_pow2_land by exact Hn.
    apply Z.bits_inj'. intros i Hi. rewrite !Z.land_spec, Z.bits_0.
    destruct (Z.lt_ge_cases i n) as [C|C].
    - now rewrite Z.mul_pow2_bits_low by lia.
    - rewrite (Z.ones_spec_high n i) by lia. now rewrite !andb_false_r. }
  rewrite Z.add_nocarry_lxor by exact E. symmetry. now apply Z.lxor_lor.
Qed.

Lemma shl_byte md b n : is_byte b -> 0 <= n <= 24 -> shl md i32 b n = Ok (conv i32 (b * 2 ^ n)).
Proof.
  unfold is_byte. intros H Hn. unfold shl. change (wid i32) with 32.
  replace ((0 <=? n) && (n <? 32)) with true by lia. cbn [sgn i32].
  assert (b * 2 ^ n < 2 ^ 32).
  { assert (2 ^ n <= 2 ^ 24) by (apply Z.pow_le_mono_r; lia). assert (0 < 2 ^ n) by (apply Z.pow_pos_nonneg; lia).
    change (2 ^ 32) with (2 ^ 8 * 2 ^ 24). apply Z.lt_le_trans with (2 ^ 8 * 2 ^ n); [nia|].
    apply Z.mul_le_mono_nonneg_l; lia. }
  replace (b <? 0) with false by lia.
  replace (2 ^ 32 <=? b * 2 ^ n) with false by (symmetry; apply Z.leb_gt; assumption). cbn [orb].
  now rewrite andb_false_r.
Qed.

Lemma be_word_val b0 b1 b2 b3 : is_byte b0 -> is_byte b1 -> is_byte b2 -> is_byte b3 ->
  conv u32 (Z.lor (Z.lor (Z.lor (conv i32 (b0 * 2 ^ 24)) (conv i32 (b1 * 2 ^ 16))) (conv i32 (b2 * 2 ^ 8))) b3)
  = of_be32 [b0; b1; b2; b3].
Proof.
  unfold is_byte. intros H0 H1 H2 H3. rewrite conv_u32, !lor_mod, !conv_i32_mod by lia.
  unfold of_be32. cbn [fold_left].
  rewrite (Z.mod_small (b0 * _)), (Z.mod_small (b1 * _)), (Z.mod_small (b2 * _)), (Z.mod_small b3) by lia.
  rewrite lor_add by lia.
  replace (b0 * 2 ^ 24 + b1 * 2 ^ 16) with ((b0 * 2 ^ 8 + b1) * 2 ^ 16) by lia.
  rewrite lor_add by lia.
  replace ((b0 * 2 ^ 8 + b1) * 2 ^ 16 + b2 * 2 ^ 8) with (((b0 * 2 ^ 8 + b1) * 2 ^ 8 + b2) * 2 ^ 8) by lia.
  rewrite lor_add by lia. lia.
Qed.

Lemma of_be32_word b0 b1 b2 b3 : is_byte b0 -> is_byte b1 -> is_byte b2 -> is_byte b3 ->
  is_word (of_be32 [b0; b1; b2; b3]).
Proof. intros. rewrite <- be_word_val by assumption. rewrite conv_u32. apply mod_word. Qed.

Lemma rd_nth {A} (l : list A) i x : nth_error l i = Some x -> rd l i = Ok x.
Proof. unfold rd. now intros ->. Qed.

Lemma rd_nth_d (l : list Z) i : (i < length l)%nat -> rd l i = Ok (nth i l 0).
Proof. intros H. apply rd_nth. now apply nth_error_nth'. Qed.

Lemma skipn_nth_error {A} (l : list A) n x : nth_error l n = Some x -> skipn n l = x :: skipn (S n) l.
Proof.
  revert n. induction l as [|y t IH]; intros [|n] H; try discriminate.
  - cbn in *. now injection H as ->.
  - cbn in *. apply IH, H.
Qed.

Lemma nth_error_nth_d (l : list Z) i : (i < length l)%nat -> nth_error l i = Some (nth i l 0).
Proof. apply nth_error_nth'. Qed.

Lemma block_of_4 (b : list Z) i : (4 * i + 3 < length b)%nat ->
  block_of 4 b i = [nth (i * 4) b 0; nth (i * 4 + 1) b 0; nth (i * 4 + 2) b 0; nth (i * 4 + 3) b 0].
Proof.
  intros H. unfold block_of.
  replace (4 * i)%nat with (i * 4)%nat by lia.
  rewrite (skipn_nth_error b (i * 4) (nth (i * 4) b 0)) by (apply nth_error_nth_d; lia).
  replace (S (i * 4)) with (i * 4 + 1)%nat by lia.
  rewrite (skipn_nth_error b (i * 4 + 1) (nth (i * 4 + 1) b 0)) by (apply nth_error_nth_d; lia).
  replace (S (i * 4 + 1)) with (i * 4 + 2)%nat by lia.
  rewrite (skipn_nth_error b (i * 4 + 2) (nth (i * 4 + 2) b 0)) by (apply nth_error_nth_d; lia).
  replace (S (i * 4 + 2)) with (i * 4 + 3)%nat by lia.
  rewrite (skipn_nth_error b (i * 4 + 3) (nth (i * 4 + 3) b 0)) by (apply nth_error_nth_d; lia).
  reflexivity.
Qed.

Lemma Forall_nth_d {P : Z -> Prop} (l : list Z) i : Forall P l -> (i < length l)%nat -> P (nth i l 0).
Proof. intros F H. rewrite Forall_forall in F. apply F, nth_In, H. Qed.

Lemma be_word_ok md b i : length b = 64%nat -> Forall is_byte b -> (i < 16)%nat ->
  be_word md b i = Ok (of_be32 (block_of 4 b i)) /\ is_word (of_be32 (block_of 4 b i)).
Proof.
  intros HL HB Hi. rewrite block_of_4 by lia.
  assert (B0 := Forall_nth_d b (i * 4) HB ltac:(lia)).
  assert (B1 := Forall_nth_d b (i * 4 + 1) HB ltac:(lia)).
  assert (B2 := Forall_nth_d b (i * 4 + 2) HB ltac:(lia)).
  assert (B3 := Forall_nth_d b (i * 4 + 3) HB ltac:(lia)).
  split; [|now apply of_be32_word].
  unfold be_word. rewrite !rd_nth_d by lia. cbn [bind].
  rewrite !shl_byte by (auto; lia). cbn [bind]. f_equal. now apply be_word_val.
Qed.

(** ** The message schedule *)
Definition xor4 (i : nat) (ws : list Z) : Z :=
  Z.lxor (Z.lxor (Z.lxor (nth (i - 3) ws 0) (nth (i - 8) ws 0)) (nth (i - 14) ws 0)) (nth (i - 16) ws 0).

Lemma extend_length n : forall ws, length (extend n ws) = (length ws + n)%nat.
Proof. induction n as [|n IH]; intros ws; cbn [extend]; [lia|]. rewrite IH, app_length. cbn. lia. Qed.

Lemma extend_nth_lo n : forall ws i, (i < length ws)%nat -> nth i (extend n ws) 0 = nth i ws 0.
Proof.
  induction n as [|n IH]; intros ws i H; cbn [extend]; [reflexivity|].
  rewrite IH by (rewrite app_length; cbn; lia). apply app_nth1, H.
Qed.

Lemma extend_nth_hi n : forall ws i, (16 <= length ws)%nat -> (length ws <= i < length ws + n)%nat ->
  nth i (extend n ws) 0 = rol32 1 (xor4 i (extend n ws)).
Proof.
  induction n as [|n IH]; intros ws i H Hi; [lia|]. cbn [extend].
  set (x := rol32 1 _). set (ws' := ws ++ [x]).
  assert (L : length ws' = S (length ws)) by (unfold ws'; rewrite app_length; cbn; lia).
  destruct (Nat.eq_dec i (length ws)) as [->|N].
  - rewrite extend_nth_lo by lia. unfold ws' at 1. rewrite app_nth2, Nat.sub_diag by lia. cbn [nth].
    unfold x, xor4. f_equal.
    rewrite !extend_nth_lo by lia. unfold ws'. rewrite !app_nth1 by lia. reflexivity.
  - apply IH; lia.
Qed.

Lemma extend_words n : forall ws, (16 <= length ws)%nat -> Forall is_word ws -> Forall is_word (extend n ws).
Proof.
  induction n as [|n IH]; intros ws H F; cbn [extend]; [exact F|].
  apply IH; [rewrite app_length; cbn; lia|]. apply Forall_app. split; [exact F|].
  constructor; [|constructor]. apply rol32_word; [|lia].
  repeat apply lxor_word; apply Forall_nth_d; auto; lia.
Qed.

Opaque extend.

Definition vwords (v : Z * Z * Z * Z * Z) : Prop :=
  let '(a, b, c, d, e) := v in is_word a /\ is_word b /\ is_word c /\ is_word d /\ is_word e.

Lemma round_f_eq t x y z : is_word x -> round_f t x y z = sha_f t x y z.
Proof. intros H. unfold round_f, sha_f. rewrite cpl32 by exact H. reflexivity. Qed.

Lemma round_k_eq t : round_k t = sha_k t.
Proof. reflexivity. Qed.

Section Block.
  Variable md : bool.
  Variable b : list Z.
  Hypothesis Lb : length b = 64%nat.
  Hypothesis Bb : Forall is_byte b.

  Lemma words16_length : length (map of_be32 (blocks 4 b)) = 16%nat.
  Proof. unfold blocks. rewrite !map_length, seq_length, Lb. reflexivity. Qed.

  Lemma words16_nth i : (i < 16)%nat -> nth i (map of_be32 (blocks 4 b)) 0 = of_be32 (block_of 4 b i).
  Proof.
    intros H. unfold blocks. rewrite map_map.
    erewrite nth_indep with (d' := of_be32 (block_of 4 b 0)) by (rewrite map_length, seq_length, Lb; exact H).
    rewrite map_nth with (f := fun j => of_be32 (block_of 4 b j)) (d := 0%nat).
    rewrite seq_nth by (rewrite Lb; exact H). reflexivity.
  Qed.

  Lemma words16_words : Forall is_word (map of_be32 (blocks 4 b)).
  Proof.
    apply Forall_forall. intros x Hx. apply In_nth with (d := 0) in Hx. destruct Hx as (i & Hi & <-).
    rewrite words16_length in Hi. rewrite words16_nth by exact Hi.
    now apply (be_word_ok md b i).
  Qed.

  Lemma schedule_length : length (schedule b) = 80%nat.
  Proof. unfold schedule. now rewrite extend_length, words16_length. Qed.

  Lemma schedule_lo i : (i < 16)%nat -> nth i (schedule b) 0 = of_be32 (block_of 4 b i).
  Proof.
    intros H. unfold schedule. rewrite extend_nth_lo by (rewrite words16_length; exact H). now apply words16_nth.
  Qed.

  Lemma schedule_hi i : (16 <= i < 80)%nat -> nth i (schedule b) 0 = rol32 1 (xor4 i (schedule b)).
  Proof. intros H. unfold schedule. apply extend_nth_hi; rewrite words16_length; lia. Qed.

  Lemma schedule_word i : (i < 80)%nat -> is_word (nth i (schedule b) 0).
  Proof.
    intros H. apply Forall_nth_d; [|rewrite schedule_length; exact H]. unfold schedule.
    apply extend_words; [rewrite words16_length; lia|apply words16_words].
  Qed.

  Lemma xor4_word i : (16 <= i < 80)%nat -> is_word (xor4 i (schedule b)).
  Proof. intros H. unfold xor4. repeat apply lxor_word; apply schedule_word; lia. Qed.

  Lemma calc_w_ok r : forall i, (i < 80)%nat -> (i < r)%nat -> calc_w md r b i = Ok (nth i (schedule b) 0).
  Proof.
    induction r as [|r IH]; intros i Hi Hr; [lia|]. cbn [calc_w].
    destruct (Nat.ltb_spec i 16) as [C|C].
    - rewrite schedule_lo by exact C. now apply be_word_ok.
    - rewrite !IH by lia. cbn [bind].
      fold (xor4 i (schedule b)). rewrite rotl32_ok by (try apply xor4_word; lia).
      now rewrite <- schedule_hi by lia.
  Qed.

  Lemma sha_step_words v t : vwords v -> vwords (sha_step (schedule b) v t).
  Proof.
    destruct v as [[[[a x] c] d] e]. intros (H1&H2&H3&H4&H5). cbn.
    split; [apply plus32_word|]. split; [exact H1|]. split; [apply rol32_word; [exact H2|lia]|]. now split.
  Qed.

  Lemma sha_fold_words ts : forall v, vwords v -> vwords (fold_left (sha_step (schedule b)) ts v).
  Proof. induction ts as [|t ts IH]; intros v H; cbn [fold_left]; [exact H|]. apply IH, sha_step_words, H. Qed.
End Block.

Definition list5 (v : Z * Z * Z * Z * Z) : list Z := let '(a, b, c, d, e) := v in [a; b; c; d; e].

Lemma add_h_ok h v : add_h (list5 h) (fst (fst (fst (fst v)))) (snd (fst (fst (fst v)))) (snd (fst (fst v))) (snd (fst v)) (snd v)
  = let '(h0, h1, h2, h3, h4) := h in let '(a, b, c, d, e) := v in
    Ok [plus32 h0 a; plus32 h1 b; plus32 h2 c; plus32 h3 d; plus32 h4 e].
Proof. destruct h as [[[[h0 h1] h2] h3] h4]. destruct v as [[[[a b] c] d] e]. reflexivity. Qed.

Lemma compress_words b h : vwords (compress h b).
Proof.
  unfold compress. destruct h as [[[[h0 h1] h2] h3] h4].
  destruct (fold_left _ _ _) as [[[[x y] z] u] w]. unfold vwords.
  repeat split; try apply (plus32_word _ _).
Qed.

Lemma process_block_1_ok md s h n : length (block_ s) = 64%nat -> Forall is_byte (block_ s) ->
  h_ s = list5 h ->
  forall i v, (i + n = 80)%nat -> vwords v ->
  let '(a, b, c, d, e) := v in
  process_block_1 md (S n) s a b c d e i =
    let '(a, b, c, d, e) := fold_left (sha_step (schedule (block_ s))) (seq i n) v in
    let '(h0, h1, h2, h3, h4) := h in
    Ok (Sha1 [plus32 h0 a; plus32 h1 b; plus32 h2 c; plus32 h3 d; plus32 h4 e] (block_ s)
          (block_byte_index_ s) (bit_count_ s)).
Proof.
  intros Lb Bb Hh. induction n as [|n IH]; intros i [[[[a b] c] d] e] Hi Hv.
  - cbn [process_block_1 seq fold_left]. replace (i <? 80)%nat with false by (symmetry; apply Nat.ltb_ge; lia).
    rewrite Hh. destruct h as [[[[h0 h1] h2] h3] h4]. reflexivity.
  - remember (S n) as n1. cbn [process_block_1]. subst n1.
    replace (i <? 80)%nat with true by (symmetry; apply Nat.ltb_lt; lia).
    pose proof Hv as (H1&H2&H3&H4&H5).
    rewrite !rotl32_ok by (auto; lia). cbn [bind].
    rewrite calc_w_ok by (auto; lia). cbn [bind].
    rewrite !add32_eq. rewrite round_f_eq by exact H2. rewrite round_k_eq.
    specialize (IH (S i) (sha_step (schedule (block_ s)) (a, b, c, d, e) i) ltac:(lia) ltac:(now apply sha_step_words)).
    cbn [sha_step] in IH. cbn [seq fold_left sha_step].
    rewrite plus32_swap. exact IH.
Qed.

Lemma c_process_block0_ok md h b i bc : length b = 64%nat -> Forall is_byte b -> vwords h ->
  c_process_block0 md (Sha1 (list5 h) b i bc) = Ok (Sha1 (list5 (compress h b)) b i bc).
Proof.
  intros Lb Bb Hv. unfold c_process_block0. destruct h as [[[[h0 h1] h2] h3] h4]. cbn [h_ list5 rd nth_error bind].
  pose proof (process_block_1_ok md (Sha1 (list5 (h0, h1, h2, h3, h4)) b i bc) (h0, h1, h2, h3, h4) 80 Lb Bb eq_refl 0
    (h0, h1, h2, h3, h4) eq_refl Hv) as H. cbn [block_ block_byte_index_ bit_count_] in H.
  unfold compress.
  change (process_block_1 md 81 (Sha1 [h0; h1; h2; h3; h4] b i bc) h0 h1 h2 h3 h4 0 = Ok (Sha1 (list5 (let
    '(a, b0, c, d, e) := fold_left (sha_step (schedule b)) (seq 0 80) (h0, h1, h2, h3, h4) in
    (plus32 h0 a, plus32 h1 b0, plus32 h2 c, plus32 h3 d, plus32 h4 e))) b i bc)).
  cbn [list5] in H.
  rewrite H. destruct (fold_left _ _ _) as [[[[x y] z] u] w]. reflexivity.
Qed.

(** ** The mutating block function *)
Lemma upd_length' {A} (l : list A) i x : length (upd l i x) = length l.
Proof. revert i. induction l as [|y t IH]; intros [|i]; cbn; auto. Qed.

Lemma upd_nth_eq (l : list Z) i x : (i < length l)%nat -> nth i (upd l i x) 0 = x.
Proof. revert i. induction l as [|y t IH]; intros [|i] H; cbn in *; try lia; auto. apply IH. lia. Qed.

Lemma upd_nth_neq (l : list Z) i j x : i <> j -> nth j (upd l i x) 0 = nth j l 0.
Proof. revert i j. induction l as [|y t IH]; intros [|i] [|j] H; cbn; auto; try lia. Qed.

Lemma upd_upd {A} (l : list A) i x y : upd (upd l i x) i y = upd l i y.
Proof. revert i. induction l as [|z t IH]; intros [|i]; cbn; auto. now rewrite IH. Qed.

Lemma wr_upd {A} (l : list A) i x : (i < length l)%nat -> wr l i x = Ok (upd l i x).
Proof. intros H. unfold wr. apply Nat.ltb_lt in H. now rewrite H. Qed.

Lemma fill_w_ok md b i w : length b = 64%nat -> Forall is_byte b -> (i < 16)%nat -> length w = 80%nat ->
  fill_w md b i w = Ok (upd w i (of_be32 (block_of 4 b i))).
Proof.
  intros HL HB Hi Hw. rewrite block_of_4 by lia.
  assert (B0 := Forall_nth_d b (i * 4) HB ltac:(lia)).
  assert (B1 := Forall_nth_d b (i * 4 + 1) HB ltac:(lia)).
  assert (B2 := Forall_nth_d b (i * 4 + 2) HB ltac:(lia)).
  assert (B3 := Forall_nth_d b (i * 4 + 3) HB ltac:(lia)).
  unfold fill_w. rewrite Nat.add_0_r.
  rewrite rd_nth_d by lia. cbn [bind]. rewrite shl_byte by (auto; lia). cbn [bind].
  rewrite wr_upd by lia. cbn [bind].
  rewrite rd_nth_d by lia. cbn [bind]. rewrite shl_byte by (auto; lia). cbn [bind].
  rewrite rd_nth_d by (rewrite upd_length'; lia). cbn [bind]. rewrite upd_nth_eq by lia.
  rewrite wr_upd by (rewrite upd_length'; lia). cbn [bind]. rewrite upd_upd.
  rewrite rd_nth_d by lia. cbn [bind]. rewrite shl_byte by (auto; lia). cbn [bind].
  rewrite rd_nth_d by (rewrite upd_length'; lia). cbn [bind]. rewrite upd_nth_eq by lia.
  rewrite wr_upd by (rewrite upd_length'; lia). cbn [bind]. rewrite upd_upd.
  rewrite rd_nth_d by lia. cbn [bind].
  rewrite rd_nth_d by (rewrite upd_length'; lia). cbn [bind]. rewrite upd_nth_eq by lia.
  rewrite wr_upd by (rewrite upd_length'; lia). rewrite upd_upd.
  do 2 f_equal. rewrite <- be_word_val by assumption. rewrite !conv_u32.
  rewrite !(lor_mod _ _ 32), !Z.mod_mod by lia. reflexivity.
Qed.

Lemma for_up_inv {S} (P : nat -> S -> Prop) (f : nat -> S -> res S) n : forall a s,
  P a s -> (forall i s, (a <= i < a + n)%nat -> P i s -> exists s', f i s = Ok s' /\ P (Datatypes.S i) s') ->
  exists s', for_up n a f s = Ok s' /\ P (a + n)%nat s'.
Proof.
  induction n as [|n IH]; intros a s H0 H; cbn [for_up].
  - exists s. now rewrite Nat.add_0_r.
  - destruct (H a s ltac:(lia) H0) as (s1 & E & H1). rewrite E. cbn [bind].
    destruct (IH (Datatypes.S a) s1 H1) as (s2 & E2 & H2).
    { intros i s' Hi. apply H. lia. }
    exists s2. rewrite E2. now replace (a + Datatypes.S n)%nat with (Datatypes.S a + n)%nat by lia.
Qed.

Lemma m_rounds_ok md w n : length w = 80%nat -> (forall i, (i < 80)%nat -> is_word (nth i w 0)) ->
  forall i v, (i + n = 80)%nat -> vwords v ->
  for_up n i (m_round md w) v = Ok (fold_left (sha_step w) (seq i n) v).
Proof.
  intros Lw Ww. induction n as [|n IH]; intros i [[[[a b] c] d] e] Hi Hv; cbn [for_up seq fold_left]; [reflexivity|].
  pose proof Hv as (H1&H2&H3&H4&H5). unfold m_round at 1.
  rewrite !rotl32_ok by (auto; lia). cbn [bind]. rewrite rd_nth_d by lia. cbn [bind].
  rewrite !add32_eq, round_f_eq, round_k_eq by exact H2. rewrite plus32_swap.
  rewrite IH; [reflexivity|lia|].
  split; [apply plus32_word|]. split; [exact H1|]. split; [apply rol32_word; [exact H2|lia]|]. now split.
Qed.

Lemma list_nth_ext (l l' : list Z) n : length l = n -> length l' = n ->
  (forall i, (i < n)%nat -> nth i l 0 = nth i l' 0) -> l = l'.
Proof. intros H1 H2 H. apply nth_ext with (d := 0) (d' := 0); [lia|]. intros i Hi. apply H. lia. Qed.

Lemma m_process_block0_ok md h b i bc : length b = 64%nat -> Forall is_byte b -> vwords h ->
  m_process_block0 md (Sha1 (list5 h) b i bc) = Ok (Sha1 (list5 (compress h b)) b i bc).
Proof.
  intros Lb Bb Hv. unfold m_process_block0. cbn [h_ block_ block_byte_index_ bit_count_].
  destruct (for_up_inv (fun i w => length w = 80%nat /\ (forall j, (j < i)%nat -> nth j w 0 = nth j (schedule b) 0))
    (fill_w md b) 16 0 (repeat 0 80)) as (w1 & E1 & L1 & P1).
  { split; [apply repeat_length|lia]. }
  { intros j w Hj (Lw & Pw). exists (upd w j (of_be32 (block_of 4 b j))). split; [apply fill_w_ok; auto; lia|].
    split; [now rewrite upd_length'|]. intros k Hk. destruct (Nat.eq_dec k j) as [->|N].
    - rewrite upd_nth_eq by lia. now rewrite schedule_lo by (auto; lia).
    - rewrite upd_nth_neq by lia. apply Pw. lia. }
  rewrite E1. cbn [bind].
  destruct (for_up_inv (fun i w => length w = 80%nat /\ (forall j, (j < i)%nat -> nth j w 0 = nth j (schedule b) 0))
    (extend_w md) 64 16 w1) as (w2 & E2 & L2 & P2).
  { split; [exact L1|exact P1]. }
  { intros j w Hj (Lw & Pw). exists (upd w j (nth j (schedule b) 0)).
    split.
    - unfold extend_w. rewrite !rd_nth_d by lia. cbn [bind]. rewrite !Pw by lia.
      fold (xor4 j (schedule b)). rewrite rotl32_ok by (try apply xor4_word; auto; lia). cbn [bind].
      rewrite <- schedule_hi by (auto; lia). apply wr_upd. lia.
    - split; [now rewrite upd_length'|]. intros k Hk. destruct (Nat.eq_dec k j) as [->|N].
      + now rewrite upd_nth_eq by lia.
      + rewrite upd_nth_neq by lia. apply Pw. lia. }
  rewrite E2. cbn [bind].
  assert (W : w2 = schedule b) by (apply (list_nth_ext _ _ 80); [exact L2|now apply schedule_length|exact P2]).
  subst w2.
  destruct h as [[[[h0 h1] h2] h3] h4]. cbn [list5 rd nth_error bind].
  rewrite m_rounds_ok; [|now apply schedule_length|intros; now apply (schedule_word md)|reflexivity|exact Hv].
  cbn [bind]. unfold compress. destruct (fold_left _ _ _) as [[[[x y] z] u] v]. reflexivity.
Qed.
