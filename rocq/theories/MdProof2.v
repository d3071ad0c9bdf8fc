(** MD5: streaming, padding, the digest. *)
From Coq Require Import List Arith ZArith Bool Lia.
From Verif Require Import Base BitModel ShaModel ShaSpec SearchProof ShaProof ShaProof2 MdModel MdSpec MdProof.
Import ListNotations.
Open Scope Z_scope.

Lemma compress_words_words v x : mwords (compress_words v x).
Proof. unfold compress_words. apply madd_words. Qed.

Local Opaque md_compress compress_words bits_word.

Definition tup4 (k : list Z) : Z * Z * Z * Z := (nth 0 k 0, nth 1 k 0, nth 2 k 0, nth 3 k 0).
Lemma tup4_list4 v : tup4 (list4 v) = v.
Proof. destruct v as [[[a b] c] d]. reflexivity. Qed.

Definition mwf (s : md5) : Prop :=
  (exists v, k_ s = list4 v /\ mwords v) /\ length (mblock_ s) = 16%nat /\ 0 <= mbit_count_ s < 2 ^ 64.

Definition mafter (k b : list Z) (bc : Z) : md5 :=
  if bc mod 512 =? 0 then Md5 (list4 (compress_words (tup4 k) b)) (repeat 0 16) bc else Md5 k b bc.

Definition widx (n : Z) : nat := Z.to_nat (n mod 512 / 32).
Definition woff (n : Z) : nat := Z.to_nat (n mod 32).

Definition pbit (s : md5) (b : bool) : md5 :=
  let i := widx (mbit_count_ s) in
  mafter (k_ s) (upd (mblock_ s) i (Z.lor (nth i (mblock_ s) 0) (Z.b2z b * 2 ^ Z.of_nat (bpos (woff (mbit_count_ s))))))
    (add64 (mbit_count_ s) 1).

Lemma widx_lt n : (widx n < 16)%nat.
Proof.
  unfold widx. assert (B := Z.mod_pos_bound n 512 ltac:(lia)).
  assert (n mod 512 / 32 < 16) by (apply Z.div_lt_upper_bound; lia).
  assert (0 <= n mod 512 / 32) by (apply Z.div_pos; lia). lia.
Qed.
Lemma woff_lt n : (woff n < 32)%nat.
Proof. unfold woff. assert (B := Z.mod_pos_bound n 32 ltac:(lia)). lia. Qed.

Lemma mprocess_ok md k b bc v : k = list4 v -> mwords v -> length b = 16%nat ->
  md5_process md k b bc = Ok (mafter k b bc).
Proof.
  intros -> Hv Lb. unfold md5_process, mafter. change (64 * 8) with 512.
  destruct (bc mod 512 =? 0); cbn [negb]; [|reflexivity]. rewrite tup4_list4. now apply process_block_k_ok.
Qed.

Lemma mafter_wf k b bc v : k = list4 v -> mwords v -> length b = 16%nat -> 0 <= bc < 2 ^ 64 -> mwf (mafter k b bc).
Proof.
  intros -> Hv Lb Hc. unfold mafter, mwf. destruct (bc mod 512 =? 0); cbn [k_ mblock_ mbit_count_].
  - split; [eexists; split; [reflexivity|apply compress_words_words]|]. split; [reflexivity|exact Hc].
  - split; [exists v; auto|]. split; assumption.
Qed.

Lemma pbit_wf s b : mwf s -> mwf (pbit s b).
Proof.
  intros ((v & Hk & Hv) & Lb & Hc). unfold pbit. apply mafter_wf with v; auto; [now rewrite upd_length'|apply add64_range].
Qed.

Lemma bit_shl_ok md b o : (o < 32)%nat -> bit_shl md b (Z.of_nat o) = Ok (Z.b2z b * 2 ^ Z.of_nat (bpos o)).
Proof.
  intros H. unfold bit_shl.
  assert (E : Z.of_nat o / 8 * 8 + (7 - Z.of_nat o mod 8) = Z.of_nat (bpos o)).
  { unfold bpos. assert (M := Nat.mod_upper_bound o 8 ltac:(lia)).
    rewrite Nat2Z.inj_add, Nat2Z.inj_mul, Nat2Z.inj_sub, Nat2Z.inj_div, Nat2Z.inj_mod by lia. reflexivity. }
  rewrite E. assert (B := bpos_lt o H). unfold shl. change (wid u32) with 32. cbn [sgn u32 andb].
  replace ((0 <=? Z.of_nat (bpos o)) && (Z.of_nat (bpos o) <? 32)) with true by lia.
  rewrite conv_u32, word_mod by (now apply bit_pow_word). reflexivity.
Qed.

Lemma woff_Z n : Z.of_nat (woff n) = n mod 32.
Proof. unfold woff. assert (B := Z.mod_pos_bound n 32 ltac:(lia)). lia. Qed.

Lemma c_process_bit_ok md s b : mwf s -> c_process_bit md s b = Ok (pbit s b).
Proof.
  intros ((v & Hk & Hv) & Lb & Hc). unfold c_process_bit, process_bit_impl. change (64 * 8) with 512.
  fold (widx (mbit_count_ s)). assert (I := widx_lt (mbit_count_ s)).
  rewrite rd_nth_d by lia. cbn [bind]. rewrite <- woff_Z, bit_shl_ok by apply woff_lt. cbn [bind].
  rewrite wr_upd by lia. cbn [bind]. apply mprocess_ok with v; auto. now rewrite upd_length'.
Qed.

Lemma m_process_bit_ok md s b : mwf s -> m_process_bit md s b = Ok (pbit s b).
Proof.
  intros ((v & Hk & Hv) & Lb & Hc). unfold m_process_bit. change (64 * 8) with 512. cbv zeta.
  fold (widx (mbit_count_ s)). assert (I := widx_lt (mbit_count_ s)).
  rewrite rd_nth_d by lia. cbn [bind]. rewrite <- woff_Z, bit_shl_ok by apply woff_lt. cbn [bind].
  rewrite wr_upd by lia. cbn [bind]. unfold pbit, mafter. cbv zeta.
  destruct (_ =? 0); [|reflexivity]. rewrite Hk, tup4_list4. apply m_process_block_k_ok; [now rewrite upd_length'|exact Hv].
Qed.

Definition mfeed (s : md5) (bs : list bool) : md5 := fold_left pbit bs s.

Lemma mfeed_app s a b : mfeed s (a ++ b) = mfeed (mfeed s a) b.
Proof. apply fold_left_app. Qed.

Lemma mfeed_wf bs : forall s, mwf s -> mwf (mfeed s bs).
Proof. induction bs as [|b t IH]; intros s H; [exact H|]. apply (IH (pbit s b)), pbit_wf, H. Qed.

Lemma bit_of_ok x n : 0 <= n < 32 -> bit_of x n = Ok (Z.testbit x n).
Proof.
  intros H. unfold bit_of, shr. change (wid i32) with 32.
  replace ((0 <=? n) && (n <? 32)) with true by lia. cbn [bind].
  change 1 with (Z.ones 1). rewrite Z.land_ones by lia. change (2 ^ 1) with 2.
  rewrite <- Z.bit0_mod, Z.shiftr_spec, Z.add_0_l by lia. now destruct (Z.testbit x n).
Qed.

Definition low_bits (x : Z) (n : nat) : list bool := map (fun i => Z.testbit x (Z.of_nat i)) (rev (seq 0 n)).

Lemma low_bits_S x n : low_bits x (S n) = Z.testbit x (Z.of_nat n) :: low_bits x n.
Proof. unfold low_bits. now rewrite seq_S, rev_app_distr. Qed.

Lemma low_bits_8 x : low_bits x 8 = byte_bits x.
Proof. reflexivity. Qed.

Lemma c_process_bits_ok md x n : (n <= 32)%nat -> forall s, mwf s -> c_process_bits md s x n = Ok (mfeed s (low_bits x n)).
Proof.
  induction n as [|n IH]; intros Hn s H; [reflexivity|]. cbn [c_process_bits].
  rewrite bit_of_ok by lia. cbn [bind]. rewrite c_process_bit_ok by exact H. cbn [bind].
  rewrite IH by (try apply pbit_wf; auto; lia). now rewrite low_bits_S.
Qed.

Lemma m_process_bits_ok md x n : (n <= 32)%nat -> forall s, mwf s -> m_process_bits md s x n = Ok (mfeed s (low_bits x n)).
Proof.
  induction n as [|n IH]; intros Hn s H; [reflexivity|]. cbn [m_process_bits].
  rewrite bit_of_ok by lia. cbn [bind]. rewrite m_process_bit_ok by exact H. cbn [bind].
  rewrite IH by (try apply pbit_wf; auto; lia). now rewrite low_bits_S.
Qed.

(** ** Bits that stay within one word *)
Fixpoint accw (w : Z) (o : nat) (bs : list bool) : Z :=
  match bs with
  | [] => w
  | b :: t => accw (Z.lor w (Z.b2z b * 2 ^ Z.of_nat (bpos o))) (S o) t
  end.

Lemma accw_snoc bs : forall w o b, accw w o (bs ++ [b]) = Z.lor (accw w o bs) (Z.b2z b * 2 ^ Z.of_nat (bpos (o + length bs))).
Proof.
  induction bs as [|x t IH]; intros w o b; cbn [accw app length]; [now rewrite Nat.add_0_r|].
  rewrite IH. do 5 f_equal. lia.
Qed.

Lemma mod_mod64 x m : (m | 2 ^ 64) -> x mod 2 ^ 64 mod m = x mod m.
Proof.
  intros (q & E). symmetry. destruct (Z.eq_dec m 0) as [->|N]; [rewrite Z.mul_0_r in E; discriminate|].
  rewrite (Z.div_mod x (2 ^ 64)) at 1 by discriminate. rewrite E at 1.
  replace (q * m * (x / 2 ^ 64) + x mod 2 ^ 64) with (x mod 2 ^ 64 + (q * (x / 2 ^ 64)) * m) by lia.
  now rewrite Z.mod_add by exact N.
Qed.
Lemma div32 : (32 | 2 ^ 64). Proof. now exists (2 ^ 59). Qed.
Lemma div512 : (512 | 2 ^ 64). Proof. now exists (2 ^ 55). Qed.

Lemma add64_mod32 n k : add64 n k mod 32 = (n + k) mod 32.
Proof. unfold add64. rewrite conv_u64. apply mod_mod64, div32. Qed.
Lemma add64_mod512 n k : add64 n k mod 512 = (n + k) mod 512.
Proof. unfold add64. rewrite conv_u64. apply mod_mod64, div512. Qed.

Lemma within n k : 0 <= k -> n mod 32 + k < 32 ->
  (n + k) mod 32 = n mod 32 + k /\ (n + k) mod 512 = n mod 512 + k /\ (n mod 512 + k) / 32 = n mod 512 / 32.
Proof.
  intros Hk H.
  assert (A := Z.div_mod n 32 ltac:(lia)). assert (B := Z.div_mod n 512 ltac:(lia)).
  assert (A1 := Z.mod_pos_bound n 32 ltac:(lia)). assert (B1 := Z.mod_pos_bound n 512 ltac:(lia)).
  assert (C := Z.div_mod (n mod 512) 32 ltac:(lia)). assert (C1 := Z.mod_pos_bound (n mod 512) 32 ltac:(lia)).
  assert (C2 : (n mod 512) mod 32 = n mod 32).
  { rewrite B at 2. replace (512 * (n / 512) + n mod 512) with (n mod 512 + (16 * (n / 512)) * 32) by lia.
    now rewrite Z.mod_add by lia. }
  rewrite C2 in C.
  assert (C3 : n mod 512 / 32 <= 15) by lia.
  split; [symmetry; apply Z.mod_unique with (n / 32); [left|]; lia|].
  split; [symmetry; apply Z.mod_unique with (n / 512); [left|]; lia|].
  symmetry. apply Z.div_unique with (n mod 32 + k); [left|]; lia.
Qed.

Lemma mfeed_word bs : bs <> [] -> forall s, mwf s -> (woff (mbit_count_ s) + length bs <= 32)%nat ->
  mfeed s bs = mafter (k_ s)
    (upd (mblock_ s) (widx (mbit_count_ s)) (accw (nth (widx (mbit_count_ s)) (mblock_ s) 0) (woff (mbit_count_ s)) bs))
    (add64 (mbit_count_ s) (Z.of_nat (length bs))).
Proof.
  induction bs as [|b bs IH] using rev_ind; intros NE s H Hl; [congruence|].
  destruct bs as [|b0 bs0] eqn:EB; [reflexivity|]. rewrite <- EB in *.
  assert (NE' : bs <> []) by (subst; discriminate).
  rewrite app_length in Hl. cbn [length] in Hl.
  rewrite mfeed_app, IH by (auto; lia).
  pose proof H as (_ & Lb & _). assert (W := woff_Z (mbit_count_ s)). assert (I := widx_lt (mbit_count_ s)).
  assert (LB : (0 < length bs)%nat) by (subst; cbn; lia).
  set (n := mbit_count_ s) in *.
  destruct (within n (Z.of_nat (length bs)) ltac:(lia) ltac:(lia)) as (E1 & E2 & E3).
  assert (B1 := Z.mod_pos_bound n 512 ltac:(lia)).
  unfold mafter at 1. rewrite add64_mod512, E2.
  replace (n mod 512 + Z.of_nat (length bs) =? 0) with false by lia.
  unfold mfeed. cbn [fold_left]. unfold pbit. cbv zeta. cbn [k_ mblock_ mbit_count_].
  assert (WI : widx (add64 n (Z.of_nat (length bs))) = widx n).
  { unfold widx. rewrite add64_mod512, E2, E3. reflexivity. }
  assert (WO : woff (add64 n (Z.of_nat (length bs))) = (woff n + length bs)%nat).
  { unfold woff. rewrite add64_mod32, E1. assert (B2 := Z.mod_pos_bound n 32 ltac:(lia)). lia. }
  rewrite WI, WO, upd_nth_eq, upd_upd by lia. rewrite <- accw_snoc.
  f_equal. rewrite app_length, add64_assoc. f_equal. cbn [length]. lia.
Qed.

Lemma mod8_off n : n mod 8 = 0 -> (woff n = 0 \/ woff n = 8 \/ woff n = 16 \/ woff n = 24)%nat.
Proof.
  intros H. assert (W := woff_Z n). assert (B := Z.mod_pos_bound n 32 ltac:(lia)).
  assert (D := Z.div_mod n 32 ltac:(lia)). assert (D8 := Z.div_mod n 8 ltac:(lia)). lia.
Qed.

Lemma c_process_byte_bits md s x : mwf s -> md5_c_process_byte md s x = Ok (mfeed s (low_bits x 8)).
Proof.
  intros H. unfold md5_c_process_byte.
  destruct (Z.eqb_spec (mbit_count_ s mod 8) 0) as [E|N].
  - pose proof H as ((v & Hk & Hv) & Lb & Hc). assert (I := widx_lt (mbit_count_ s)).
    unfold process_byte_impl. change (64 * 8) with 512. fold (widx (mbit_count_ s)).
    assert (O := mod8_off _ E).
    rewrite rd_nth_d by lia. cbn [bind]. rewrite <- woff_Z.
    rewrite !bit_of_ok by lia. cbn [bind].
    replace (Z.of_nat (woff (mbit_count_ s)) + 1) with (Z.of_nat (S (woff (mbit_count_ s)))) by lia.
    replace (Z.of_nat (woff (mbit_count_ s)) + 2) with (Z.of_nat (S (S (woff (mbit_count_ s))))) by lia.
    replace (Z.of_nat (woff (mbit_count_ s)) + 3) with (Z.of_nat (S (S (S (woff (mbit_count_ s)))))) by lia.
    replace (Z.of_nat (woff (mbit_count_ s)) + 4) with (Z.of_nat (S (S (S (S (woff (mbit_count_ s))))))) by lia.
    replace (Z.of_nat (woff (mbit_count_ s)) + 5) with (Z.of_nat (S (S (S (S (S (woff (mbit_count_ s)))))))) by lia.
    replace (Z.of_nat (woff (mbit_count_ s)) + 6) with (Z.of_nat (S (S (S (S (S (S (woff (mbit_count_ s))))))))) by lia.
    replace (Z.of_nat (woff (mbit_count_ s)) + 7) with (Z.of_nat (S (S (S (S (S (S (S (woff (mbit_count_ s)))))))))) by lia.
    rewrite !bit_shl_ok by lia. cbn [bind].
    rewrite wr_upd by lia. cbn [bind].
    rewrite mfeed_word by (try discriminate; auto; change (length (low_bits x 8)) with 8%nat; lia).
    apply mprocess_ok with v; auto. now rewrite upd_length'.
  - repeat (rewrite bit_of_ok by lia; cbn [bind]; rewrite c_process_bit_ok by (repeat apply pbit_wf; exact H); cbn [bind]).
    rewrite !low_bits_S. unfold mfeed. cbn [low_bits rev seq map fold_left]. reflexivity.
Qed.

Lemma c_process_block_bits md xs : forall s, mwf s ->
  md5_c_process_block md s xs = Ok (mfeed s (flat_map (fun x => low_bits x 8) xs)).
Proof.
  induction xs as [|x t IH]; intros s H; [reflexivity|]. cbn [md5_c_process_block flat_map].
  rewrite c_process_byte_bits by exact H. cbn [bind]. rewrite IH by (now apply mfeed_wf). now rewrite mfeed_app.
Qed.

(** ** The message behind a state *)
Definition mstate_of (msg : list bool) := fold_left md_compress (blocks 512 msg) md_init.

Definition tail_of (msg : list bool) : list bool := skipn (512 * (length msg / 512)) msg.
Definition padded (t : list bool) : list bool := t ++ repeat false (512 - length t).

Definition mstands (s : md5) (msg : list bool) : Prop :=
  k_ s = list4 (mstate_of msg) /\ mblock_ s = bits_words (padded (tail_of msg)) /\
  mbit_count_ s = Z.of_nat (length msg) mod 2 ^ 64.

Lemma minit_words : mwords md_init.
Proof. unfold mwords, md_init, is_word. lia. Qed.

Lemma mstate_words msg : mwords (mstate_of msg).
Proof.
  unfold mstate_of. destruct (blocks 512 msg) as [|b bs] using rev_ind; [apply minit_words|].
  rewrite fold_left_app. cbn [fold_left]. rewrite md_compress_eq. apply compress_words_words.
Qed.

Lemma tail_length msg : length (tail_of msg) = (length msg mod 512)%nat.
Proof.
  unfold tail_of. rewrite skipn_length. assert (D := Nat.div_mod (length msg) 512 ltac:(lia)). lia.
Qed.

Lemma padded_length t : (length t <= 512)%nat -> length (padded t) = 512%nat.
Proof. intros H. unfold padded. rewrite app_length, repeat_length. lia. Qed.

Lemma bits_words_length l : length l = 512%nat -> length (bits_words l) = 16%nat.
Proof. intros H. unfold bits_words. now rewrite map_length, blocks_length, H. Qed.

Lemma bits_words_nth l i : length l = 512%nat -> (i < 16)%nat -> nth i (bits_words l) 0 = bits_word (block_of 32 l i).
Proof.
  intros H Hi. unfold bits_words.
  rewrite nth_indep with (d' := bits_word []) by (rewrite map_length, blocks_length, H; exact Hi).
  rewrite map_nth, blocks_nth by (rewrite H; exact Hi). reflexivity.
Qed.

Lemma mstands_wf s msg : mstands s msg -> mwf s.
Proof.
  intros (Hk & Hb & Hc). split; [exists (mstate_of msg); split; [exact Hk|apply mstate_words]|]. split.
  - rewrite Hb. apply bits_words_length, padded_length. rewrite tail_length.
    assert (M := Nat.mod_upper_bound (length msg) 512 ltac:(lia)). lia.
  - rewrite Hc. apply Z.mod_pos_bound. reflexivity.
Qed.

Lemma mstands_new : mstands md5_new [].
Proof. split; [reflexivity|]. split; [|reflexivity]. vm_compute. reflexivity. Qed.

Lemma block_of_upd_same {A} n (l : list A) t b : (0 < n)%nat ->
  block_of n (upd l t b) (t / n) = upd (block_of n l (t / n)) (t mod n) b.
Proof.
  intros Hn. unfold block_of. assert (D := Nat.div_mod t n ltac:(lia)). assert (M := Nat.mod_upper_bound t n ltac:(lia)).
  replace (upd l t b) with (upd l (n * (t / n) + t mod n) b) by (now rewrite <- D).
  generalize (n * (t / n))%nat as q. revert M. generalize (t mod n)%nat as m. clear. intros m Hm q.
  assert (SU : skipn q (upd l (q + m) b) = upd (skipn q l) m b).
  { revert l. induction q as [|q IH]; intros l; [reflexivity|]. destruct l; [now destruct m|]. cbn [skipn Nat.add upd]. apply IH. }
  rewrite SU. clear SU. generalize (skipn q l) as k. clear q l. revert m Hm. induction n as [|n IH]; intros m Hm k; [lia|].
  destruct k as [|x k]; [now destruct m|]. destruct m as [|m]; [reflexivity|]. cbn [upd firstn]. f_equal.
  apply IH; lia.
Qed.

Lemma block_of_upd_other {A} n (l : list A) t b i : (0 < n)%nat -> i <> (t / n)%nat ->
  block_of n (upd l t b) i = block_of n l i.
Proof.
  intros Hn Hi. unfold block_of. assert (D := Nat.div_mod t n ltac:(lia)). assert (M := Nat.mod_upper_bound t n ltac:(lia)).
  destruct (Nat.lt_ge_cases t (n * i)) as [C|C].
  - f_equal. clear - C. revert l t C. generalize (n * i)%nat as q. induction q as [|q IH]; intros l t C; [lia|].
    destruct l as [|x l]; [now destruct t|]. destruct t as [|t]; [reflexivity|]. cbn [upd skipn]. apply IH. lia.
  - assert (C2 : (n * i + n <= t)%nat).
    { destruct (Nat.le_gt_cases (n * i + n) t) as [|G]; [assumption|]. exfalso. apply Hi.
      apply Nat.div_unique with (t - n * i)%nat; lia. }
    clear - C2. revert l t C2. generalize (n * i)%nat as q. induction q as [|q IH]; intros l t C.
    + cbn [skipn]. clear - C. revert n t C. induction l as [|x l IH]; intros n t C; [now destruct t|].
      destruct n as [|n]; [reflexivity|]. destruct t as [|t]; [lia|]. cbn [upd firstn]. f_equal. apply IH. lia.
    + destruct l as [|x l]; [now destruct t|]. destruct t as [|t]; [lia|]. cbn [upd skipn]. apply IH. lia.
Qed.

Lemma set_bit_words l t b : length l = 512%nat -> (t < 512)%nat -> nth t l false = false ->
  upd (bits_words l) (t / 32) (Z.lor (nth (t / 32) (bits_words l) 0) (Z.b2z b * 2 ^ Z.of_nat (bpos (t mod 32))))
  = bits_words (upd l t b).
Proof.
  intros L Ht N. assert (Q : (t / 32 < 16)%nat) by (apply Nat.div_lt_upper_bound; lia).
  assert (R := Nat.mod_upper_bound t 32 ltac:(lia)). assert (D := Nat.div_mod t 32 ltac:(lia)).
  apply (list_nth_ext _ _ 16).
  - rewrite upd_length'. now apply bits_words_length.
  - apply bits_words_length. now rewrite upd_length'.
  - intros i Hi. rewrite bits_words_nth with (l := upd l t b) by (rewrite ?upd_length'; auto).
    destruct (Nat.eq_dec i (t / 32)) as [->|NE].
    + rewrite upd_nth_eq by (rewrite bits_words_length; auto). rewrite bits_words_nth by auto.
      rewrite block_of_upd_same by lia. apply set_bit; [apply block_of_length; lia|exact R|].
      rewrite block_of_nth by exact R. replace (32 * (t / 32) + t mod 32)%nat with t by lia. exact N.
    + rewrite upd_nth_neq by auto. rewrite bits_words_nth by auto. now rewrite block_of_upd_other by (auto; lia).
Qed.

Lemma upd_padded t b : (length t < 512)%nat -> upd (padded t) (length t) b = padded (t ++ [b]).
Proof.
  intros H. unfold padded. rewrite app_length. cbn [length].
  replace (512 - length t)%nat with (S (512 - (length t + 1))) by lia. cbn [repeat].
  rewrite upd_app_eq. now rewrite <- app_assoc.
Qed.

Lemma mstands_bit s msg b : mstands s msg -> mstands (pbit s b) (msg ++ [b]).
Proof.
  intros H. pose proof (mstands_wf _ _ H) as (_ & Lb & _). destruct H as (Hk & Hb & Hc).
  assert (TL := tail_length msg). assert (M := Nat.mod_upper_bound (length msg) 512 ltac:(lia)).
  assert (D := Nat.div_mod (length msg) 512 ltac:(lia)).
  set (t := (length msg mod 512)%nat) in *. set (q := (length msg / 512)%nat) in *.
  assert (WI : widx (mbit_count_ s) = (t / 32)%nat).
  { unfold widx. rewrite Hc, mod_mod64 by apply div512. change 512 with (Z.of_nat 512). change 32 with (Z.of_nat 32).
    rewrite <- Nat2Z.inj_mod, <- Nat2Z.inj_div. apply Nat2Z.id. }
  assert (WO : woff (mbit_count_ s) = (t mod 32)%nat).
  { unfold woff. rewrite Hc, mod_mod64 by apply div32. change 32 with (Z.of_nat 32).
    rewrite <- Nat2Z.inj_mod, Nat2Z.id. rewrite D. replace (512 * q + t)%nat with (t + (16 * q) * 32)%nat by lia.
    apply Nat.mod_add. lia. }
  assert (BC : add64 (mbit_count_ s) 1 = Z.of_nat (length (msg ++ [b])) mod 2 ^ 64).
  { unfold add64. rewrite conv_u64, Hc, Z.add_mod_idemp_l by discriminate. f_equal. rewrite app_length. cbn [length]. lia. }
  assert (BC5 : add64 (mbit_count_ s) 1 mod 512 = Z.of_nat ((length msg + 1) mod 512)).
  { rewrite BC, mod_mod64 by apply div512. rewrite app_length. cbn [length]. now rewrite Nat2Z.inj_mod. }
  assert (BL : upd (mblock_ s) (t / 32) (Z.lor (nth (t / 32) (mblock_ s) 0) (Z.b2z b * 2 ^ Z.of_nat (bpos (t mod 32))))
    = bits_words (padded (tail_of msg ++ [b]))).
  { rewrite Hb. rewrite set_bit_words.
    - f_equal. rewrite <- TL. apply upd_padded. lia.
    - apply padded_length. lia.
    - exact M.
    - unfold padded. rewrite app_nth2 by lia. rewrite TL, Nat.sub_diag.
      replace (512 - t)%nat with (S (511 - t)) by lia. reflexivity. }
  assert (TA : tail_of msg ++ [b] = skipn (512 * q) (msg ++ [b])).
  { unfold tail_of. fold q. rewrite skipn_app. replace (512 * q - length msg)%nat with 0%nat by lia. reflexivity. }
  unfold pbit. cbv zeta. rewrite WI, WO, BL. unfold mafter. rewrite BC5.
  destruct (Nat.eq_dec t 511) as [T|T].
  - assert (E : ((length msg + 1) mod 512 = 0)%nat).
    { symmetry. apply Nat.mod_unique with (q + 1)%nat; lia. }
    assert (Q : (length (msg ++ [b]) / 512 = q + 1)%nat).
    { symmetry. apply Nat.div_unique with 0%nat; rewrite ?app_length; cbn [length]; lia. }
    rewrite E. change (Z.of_nat 0 =? 0) with true. cbv iota.
    split; [|split; [|exact BC]]; cbn [k_ mblock_ mbit_count_].
    + unfold mstate_of. rewrite blocks_app_eq by (cbn [length]; fold q; lia). fold q.
      rewrite fold_left_app. cbn [fold_left]. fold (mstate_of msg). rewrite md_compress_eq, Hk, tup4_list4.
      do 3 f_equal. rewrite <- TA. unfold padded. rewrite app_length, TL, T. cbn. apply app_nil_r.
    + unfold tail_of. rewrite Q, skipn_all2 by (rewrite app_length; cbn [length]; lia). vm_compute. reflexivity.
  - assert (E : ((length msg + 1) mod 512 = t + 1)%nat).
    { symmetry. apply Nat.mod_unique with q; lia. }
    assert (Q : (length (msg ++ [b]) / 512 = q)%nat).
    { symmetry. apply Nat.div_unique with (t + 1)%nat; rewrite ?app_length; cbn [length]; lia. }
    rewrite E. replace (Z.of_nat (t + 1) =? 0) with false by lia.
    split; [|split; [|exact BC]]; cbn [k_ mblock_ mbit_count_].
    + rewrite Hk. unfold mstate_of. rewrite blocks_app_lt; [reflexivity|lia|].
      rewrite <- app_length. exact Q.
    + unfold tail_of at 2. rewrite Q, <- TA. reflexivity.
Qed.

Lemma mstands_feed bs : forall s msg, mstands s msg -> mstands (mfeed s bs) (msg ++ bs).
Proof.
  induction bs as [|b t IH]; intros s msg H; [now rewrite app_nil_r|].
  change (mstands (mfeed (pbit s b) t) (msg ++ b :: t)).
  replace (msg ++ b :: t) with ((msg ++ [b]) ++ t) by (now rewrite <- app_assoc).
  now apply IH, mstands_bit.
Qed.

(** ** The digest *)
Lemma md_padding_ok md n : forall s, mwf s -> md5_process_padding md s n = Ok (mfeed s (repeat false n)).
Proof.
  induction n as [|n IH]; intros s H; [reflexivity|]. cbn [md5_process_padding repeat].
  rewrite c_process_bit_ok by exact H. cbn [bind]. now rewrite IH by (now apply pbit_wf).
Qed.

Lemma le_bytes_ok w : is_word w -> le_bytes w = Ok (le32 w).
Proof. intros H. unfold le_bytes. rewrite !byte_at32 by (auto; cbn; auto). reflexivity. Qed.

Lemma md_make_value_ok s v : k_ s = list4 v -> mwords v ->
  md5_make_value s = let '(a, b, c, d) := v in Ok (le32 a ++ le32 b ++ le32 c ++ le32 d).
Proof.
  intros Hk Hv. unfold md5_make_value. rewrite Hk. destruct v as [[[a b] c] d]. destruct Hv as (H1&H2&H3&H4).
  cbn [list4 rd nth_error bind]. rewrite !le_bytes_ok by assumption. reflexivity.
Qed.

Lemma le64_mod z : le64 (z mod 2 ^ 64) = le64 z.
Proof. unfold le64. cbn [map]. now rewrite !(div_mod_mod _ 64) by lia. Qed.

Lemma md_length_ok md s n : mwf s -> 0 <= n < 2 ^ 64 ->
  md5_process_length md s n = Ok (mfeed s (concat (map byte_bits (le64 n)))).
Proof.
  intros H Hn. unfold md5_process_length.
  repeat (rewrite byte_at64 by lia; cbn [bind]; rewrite c_process_byte_bits by (repeat apply mfeed_wf; exact H); cbn [bind]).
  rewrite <- !mfeed_app. rewrite !low_bits_8. unfold le64. cbn [map concat]. now rewrite app_nil_r.
Qed.

Lemma md_checksum_ok md s msg : mstands s msg -> md5_checksum md s = Ok (md5_digest_bits msg).
Proof.
  intros H. pose proof (mstands_wf _ _ H) as W. pose proof W as (_ & _ & Hc).
  unfold md5_checksum. rewrite c_process_bit_ok by exact W. cbn [bind].
  rewrite md_padding_ok by (now apply pbit_wf). cbn [bind].
  rewrite md_length_ok by (try apply mfeed_wf; try apply pbit_wf; auto). cbn [bind].
  change (pbit s true) with (mfeed s [true]). rewrite <- !mfeed_app.
  assert (P : Z.to_nat (pad_size s) = md_zeros (length msg)).
  { unfold pad_size, md_zeros. f_equal. rewrite conv_u64, mod_mod64 by apply div512.
    destruct H as (_ & _ & E). rewrite E. rewrite <- (mod_mod64 (511 + 448 - _)) by apply div512.
    rewrite Zminus_mod_idemp_r. rewrite mod_mod64 by apply div512.
    replace (511 + 448 - Z.of_nat (length msg)) with (447 - Z.of_nat (length msg) + 1 * 512) by lia.
    now rewrite Z.mod_add by lia. }
  assert (B : le64 (mbit_count_ s) = le64 (Z.of_nat (length msg))) by (destruct H as (_ & _ & ->); apply le64_mod).
  rewrite P, B. pose proof (mstands_feed ([true] ++ repeat false (md_zeros (length msg)) ++
    concat (map byte_bits (le64 (Z.of_nat (length msg))))) s msg H) as F. fold (md_pad msg) in F.
  destruct F as (Fk & _). rewrite md_make_value_ok with (v := mstate_of (md_pad msg)); [|exact Fk|apply mstate_words].
  unfold md5_digest_bits, mstate_of. destruct (fold_left md_compress _ _) as [[[a b] c] d]. reflexivity.
Qed.

Theorem make_md5_ok md msg : make_md5 md msg = Ok (md5_digest msg).
Proof.
  unfold make_md5. assert (W := mstands_wf _ _ mstands_new). rewrite c_process_block_bits by exact W. cbn [bind].
  rewrite md_checksum_ok with (msg := concat (map byte_bits msg)); [reflexivity|].
  rewrite flat_map_concat_map. apply (mstands_feed _ md5_new [] mstands_new).
Qed.

Definition md_piece_ok (p : md_piece) : Prop :=
  match p with CBits _ n => (n <= 32)%nat | MBits _ n => (n <= 32)%nat | _ => True end.

Lemma md_feed_piece_ok md s p : mwf s -> md_piece_ok p -> md_feed_piece md s p = Ok (mfeed s (md_piece_bits p)).
Proof.
  intros W P. destruct p; cbn [md_feed_piece md_piece_bits md_piece_ok] in *.
  - now apply c_process_bit_ok.
  - now apply c_process_bits_ok.
  - now apply c_process_byte_bits.
  - now apply c_process_block_bits.
  - now apply m_process_bit_ok.
  - now apply m_process_bits_ok.
  - unfold md5_m_process_byte. now apply m_process_bits_ok; [lia|].
Qed.

Lemma md_feed_pieces_ok md ps : forall s, mwf s -> Forall md_piece_ok ps ->
  md_feed_pieces md s ps = Ok (mfeed s (concat (map md_piece_bits ps))).
Proof.
  induction ps as [|p ps IH]; intros s W F; [reflexivity|]. inversion F; subst.
  cbn [map concat md_feed_pieces]. rewrite md_feed_piece_ok by assumption. cbn [bind].
  rewrite IH by (try apply mfeed_wf; assumption). now rewrite mfeed_app.
Qed.

Theorem md5_pieces_ok md ps : 
  (forall x n, In (CBits x n) ps \/ In (MBits x n) ps -> (n <= 32)%nat) ->
  exists s, md_feed_pieces md md5_new ps = Ok s /\
    md_feed_pieces md md5_new (map CBit (concat (map md_piece_bits ps))) = Ok s /\
    md5_checksum md s = Ok (md5_digest_bits (concat (map md_piece_bits ps))).
Proof.
  intros H. assert (W := mstands_wf _ _ mstands_new).
  assert (F : Forall md_piece_ok ps).
  { apply Forall_forall. intros p Hp. destruct p; cbn; auto; apply (H x n); auto. }
  eexists. split; [now apply md_feed_pieces_ok|]. split.
  - rewrite md_feed_pieces_ok; [|exact W|].
    + do 2 f_equal. rewrite map_map. cbn [md_piece_bits]. induction (concat (map md_piece_bits ps)) as [|b t IH]; [reflexivity|].
      cbn [map concat app]. now rewrite IH.
    + apply Forall_forall. intros p Hp. apply in_map_iff in Hp. destruct Hp as (b & <- & _). exact I.
  - apply md_checksum_ok. apply (mstands_feed _ md5_new [] mstands_new).
Qed.

Theorem md5_reset_ok md ps s qs :
  md_feed_pieces md md5_new ps = Ok s -> md_feed_pieces md (md5_reset s) qs = md_feed_pieces md md5_new qs.
Proof. reflexivity. Qed.
