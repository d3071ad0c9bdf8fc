(** Single bits, queries and conversions of bitsets. *)
From Coq Require Import List Arith ZArith Bool Lia.
From Verif Require Import Base BitModel BitSpec BitProof BitProof3 ShaProof MdProof MtModel MtProof BsModel BsSpec BsProof BsProof2.
Import ListNotations.
Open Scope Z_scope.

Section Bs.
  Variable t : ity.
  Hypothesis U : sgn t = false.
  Notation W := (Z.to_nat (wid t)).
  Notation bit_at := (bit_at t).
  Notation bits_are := (bits_are t).
  Notation raw := (raw t).

  (** ** One bit *)
  Lemma split_pos N w pos : raw N w -> (pos < N)%nat -> (pos / W < length w /\ pos mod W < W /\ pos = pos / W * W + pos mod W)%nat.
  Proof.
    intros [A _] P. destruct (wpos t) as [_ Wp]. split; [apply Nat.div_lt_upper_bound; lia|]. destruct (split_shift t pos) as [E M]. split; [exact M|exact E].
  Qed.
  Lemma at_word_lemma N w f pos (op : Z -> Z -> Z) (bo : bool -> bool -> bool) : bits_are N w f -> (pos < N)%nat ->
    (forall a m, is_val t a -> is_val t m -> is_val t (op a m)) ->
    (forall a m r, (r < W)%nat -> Z.testbit (op a m) (Z.of_nat r) = bo (Z.testbit a (Z.of_nat r)) (Z.testbit m (Z.of_nat r))) ->
    (forall b, bo b false = b) ->
    exists r, at_word t w pos op = Ok r /\ bits_are N r (fun i => if Nat.eqb i pos then bo (f i) true else f i).
  Proof.
    intros F P V B B0. pose proof (bits_raw _ _ _ _ F) as R. destruct (split_pos N w pos R P) as (Q & M & E).
    unfold at_word, whichword, wbits. destruct (mask_word t U pos) as (m & -> & Vm & Bm). cbn [bind].
    set (q := (pos / W)%nat) in *. set (s := (pos mod W)%nat) in *. clearbody q s.
    rewrite rd_nth_d by exact Q. cbn [bind]. rewrite wr_ok by exact Q. eexists. split; [reflexivity|].
    apply bits_qr in F as [_ F]. apply bits_qr. rewrite upd_len. split.
    - destruct R as [A0 Fo]. split; [rewrite upd_len; exact A0|]. apply Forall_forall. intros y Y. apply (In_nth _ _ 0) in Y as (p & Hp & <-). rewrite upd_len in Hp.
      destruct (Nat.eq_dec p q) as [->|Ne]; [rewrite upd_nth_eq' by exact Q; apply V; [eapply nth_val; split; [exact A0|exact Fo]|exact Vm]|].
      rewrite upd_nth_neq' by lia. eapply nth_val; split; [exact A0|exact Fo].
    - intros p r Hp Hr. destruct (Nat.eq_dec p q) as [->|Ne].
      + rewrite upd_nth_eq' by exact Q. rewrite B, F, Bm by assumption. destruct (Nat.eqb_spec r s) as [->|Nr].
        * replace (Nat.eqb (q * W + s) pos) with true by (symmetry; apply Nat.eqb_eq; lia).
          replace (Nat.ltb (q * W + s) N) with true by (symmetry; apply Nat.ltb_lt; lia). reflexivity.
        * rewrite B0. replace (Nat.eqb (q * W + r) pos) with false by (symmetry; apply Nat.eqb_neq; lia). reflexivity.
      + rewrite upd_nth_neq' by lia. rewrite F by assumption. replace (Nat.eqb (p * W + r) pos) with false; [reflexivity|].
        symmetry. apply Nat.eqb_neq. nia.
  Qed.
  Definition bit_set (f : nat -> bool) pos v i : bool := if Nat.eqb i pos then v else f i.
  Lemma clear_op a m : is_val t a -> is_val t (Z.land a (cpl t m)).
  Proof. intros A. apply and_word; [exact U|exact A|apply cpl_word]. Qed.
  Lemma unchecked_set_ok N w f pos v : bits_are N w f -> (pos < N)%nat -> exists r, unchecked_set t w pos v = Ok r /\ bits_are N r (bit_set f pos v).
  Proof.
    intros F P. unfold unchecked_set. destruct v.
    - change (fun a m : Z => Z.lor a m) with Z.lor. destruct (at_word_lemma N w f pos Z.lor orb F P) as (r & -> & B); [intros; now apply or_word|intros; apply Z.lor_spec|apply orb_false_r|].
      exists r. split; [reflexivity|]. eapply bits_ext; [exact B|]. intros i _. unfold bit_set. destruct (Nat.eqb i pos); [apply orb_true_r|reflexivity].
    - destruct (at_word_lemma N w f pos (fun a m => Z.land a (cpl t m)) (fun a b => a && negb b)%bool F P) as (r & -> & B);
        [intros; now apply clear_op|intros; rewrite Z.land_spec, (proj2 (cpl_word t _)) by assumption; reflexivity|intros b; apply andb_true_r|].
      exists r. split; [reflexivity|]. eapply bits_ext; [exact B|]. intros i _. unfold bit_set. destruct (Nat.eqb i pos); [apply andb_false_r|reflexivity].
  Qed.
  Lemma unchecked_reset_ok N w f pos : bits_are N w f -> (pos < N)%nat -> exists r, unchecked_reset t w pos = Ok r /\ bits_are N r (bit_set f pos false).
  Proof. exact (fun F P => unchecked_set_ok N w f pos false F P). Qed.
  Lemma unchecked_flip_ok N w f pos : bits_are N w f -> (pos < N)%nat -> exists r, unchecked_flip t w pos = Ok r /\ bits_are N r (bit_set f pos (negb (f pos))).
  Proof.
    intros F P. unfold unchecked_flip. change (fun a m : Z => Z.lxor a m) with Z.lxor. destruct (at_word_lemma N w f pos Z.lxor xorb F P) as (r & -> & B); [intros; now apply xor_word|intros; apply Z.lxor_spec|apply xorb_false_r|].
    exists r. split; [reflexivity|]. eapply bits_ext; [exact B|]. intros i _. unfold bit_set. destruct (Nat.eqb_spec i pos) as [->|_]; [apply xorb_true_r|reflexivity].
  Qed.
  Lemma unchecked_test_ok N w f pos : bits_are N w f -> (pos < N)%nat -> unchecked_test t w pos = Ok (f pos).
  Proof.
    intros F P. pose proof (bits_raw _ _ _ _ F) as R. destruct (split_pos N w pos R P) as (Q & M & E).
    unfold unchecked_test, whichword, wbits. destruct (mask_word t U pos) as (m & -> & Vm & Bm). cbn [bind].
    set (q := (pos / W)%nat) in *. set (s := (pos mod W)%nat) in *. clearbody q s. rewrite rd_nth_d by exact Q. cbn [bind]. f_equal.
    apply bits_qr in F as [_ F]. pose proof (F q s Q M) as Fq. replace (Nat.ltb (q * W + s) N) with true in Fq by (symmetry; apply Nat.ltb_lt; lia). cbn [andb] in Fq.
    rewrite <- E in Fq. assert (V : is_val t (nth q w 0)) by (eapply nth_val; exact R).
    destruct (Z.eqb_spec (Z.land (nth q w 0) m) 0) as [Z0|Z0]; cbn [negb].
    - assert (H : Z.testbit (Z.land (nth q w 0) m) (Z.of_nat s) = false) by (rewrite Z0; apply Z.bits_0).
      rewrite Z.land_spec, Bm, Nat.eqb_refl, andb_true_r in H by exact M. congruence.
    - rewrite <- Fq. destruct (Z.testbit (nth q w 0) (Z.of_nat s)) eqn:T; [reflexivity|]. exfalso. apply Z0.
      apply (BsProof.val_ext t); [apply and_word; assumption|apply zero_word|]. intros r Hr. rewrite Z.land_spec, Bm, Z.bits_0 by exact Hr.
      destruct (Nat.eqb_spec r s) as [->|_]; [rewrite T; reflexivity|apply andb_false_r].
  Qed.
  Lemma checked_out N pos A (r : res A) : (N <= pos)%nat -> checked N pos r = Ok Out_of_range.
  Proof. intros H. unfold checked. replace (Nat.leb N pos) with true by (symmetry; now apply Nat.leb_le). reflexivity. Qed.
  Lemma checked_in N pos A (r : res A) : (pos < N)%nat -> checked N pos r = (x <- r ;; Ok (Val x)).
  Proof. intros H. unfold checked. replace (Nat.leb N pos) with false by (symmetry; now apply Nat.leb_gt). reflexivity. Qed.

  Lemma set_bit_lemma N w f pos v : bits_are N w f ->
    ((N <= pos)%nat -> bs_set t N w pos v = Ok Out_of_range) /\
    ((pos < N)%nat -> exists r, bs_set t N w pos v = Ok (Val r) /\ unchecked_set t w pos v = Ok r /\ bits_are N r (bit_set f pos v)).
  Proof.
    intros F. split; [apply checked_out|]. intros P. destruct (unchecked_set_ok N w f pos v F P) as (r & E & B). exists r. unfold bs_set. rewrite checked_in, E by exact P. auto.
  Qed.
  Lemma reset_bit_lemma N w f pos : bits_are N w f ->
    ((N <= pos)%nat -> bs_reset t N w pos = Ok Out_of_range) /\
    ((pos < N)%nat -> exists r, bs_reset t N w pos = Ok (Val r) /\ unchecked_reset t w pos = Ok r /\ bits_are N r (bit_set f pos false)).
  Proof.
    intros F. split; [apply checked_out|]. intros P. destruct (unchecked_reset_ok N w f pos F P) as (r & E & B). exists r. unfold bs_reset. rewrite checked_in, E by exact P. auto.
  Qed.
  Lemma flip_bit_lemma N w f pos : bits_are N w f ->
    ((N <= pos)%nat -> bs_flip t N w pos = Ok Out_of_range) /\
    ((pos < N)%nat -> exists r, bs_flip t N w pos = Ok (Val r) /\ unchecked_flip t w pos = Ok r /\ bits_are N r (bit_set f pos (negb (f pos)))).
  Proof.
    intros F. split; [apply checked_out|]. intros P. destruct (unchecked_flip_ok N w f pos F P) as (r & E & B). exists r. unfold bs_flip. rewrite checked_in, E by exact P. auto.
  Qed.
  Lemma test_bit_lemma N w f pos : bits_are N w f ->
    ((N <= pos)%nat -> bs_test t N w pos = Ok Out_of_range) /\
    ((pos < N)%nat -> bs_test t N w pos = Ok (Val (f pos)) /\ unchecked_test t w pos = Ok (f pos)).
  Proof.
    intros F. split; [apply checked_out|]. intros P. pose proof (unchecked_test_ok N w f pos F P) as E. unfold bs_test. rewrite checked_in, E by exact P. auto.
  Qed.

  (** ** Queries *)
  Lemma bits_inj N w x f : bits_are N w f -> bits_are N x f -> w = x.
  Proof.
    intros F G. pose proof (bits_raw _ _ _ _ F) as R. pose proof (bits_raw _ _ _ _ G) as R'. pose proof (raw_length _ _ _ _ R R') as L.
    apply list_ext; [exact L|]. intros q Q. apply (BsProof.val_ext t); [eapply nth_val; exact R|eapply nth_val; exact R'|].
    apply bits_qr in F as [_ F]. apply bits_qr in G as [_ G]. intros r Hr. rewrite F, G by (try assumption; lia). reflexivity.
  Qed.
  Lemma equal_words_eq : forall w x, length w = length x -> equal_words w x = true <-> w = x.
  Proof.
    induction w as [|a w IH]; intros [|b x] L; cbn [length] in L; try lia; cbn [equal_words]; [tauto|].
    rewrite andb_true_iff, Z.eqb_eq, IH by lia. split; [intros [-> ->]; reflexivity|intros H; injection H; auto].
  Qed.
  Lemma eq_lemma N w x f g : bits_are N w f -> bits_are N x g -> bs_eq w x = true <-> (forall i, (i < N)%nat -> f i = g i).
  Proof.
    intros F G. pose proof (bits_raw _ _ _ _ F) as R. pose proof (bits_raw _ _ _ _ G) as R'. unfold bs_eq. rewrite equal_words_eq by (eapply raw_length; eassumption).
    split.
    - intros E i I. subst x. destruct F as (A & _ & F). destruct G as (_ & _ & G). specialize (F i ltac:(lia)). specialize (G i ltac:(lia)).
      rewrite F in G. replace (Nat.ltb i N) with true in G by (symmetry; apply Nat.ltb_lt; exact I). exact G.
    - intros H. eapply bits_inj; [eapply bits_ext; [exact F|exact H]|exact G].
  Qed.
  Lemma any_lemma N w f : bits_are N w f -> bs_any w = true <-> exists i, (i < N)%nat /\ f i = true.
  Proof.
    intros F. pose proof (bits_raw _ _ _ _ F) as R. unfold bs_any, any_words. rewrite existsb_exists. apply bits_qr in F as [_ F]. split.
    - intros (x & I & X). apply negb_true_iff, Z.eqb_neq in X. apply (In_nth _ _ 0) in I as (q & Q & E).
      destruct (existsb (fun r => Z.testbit x (Z.of_nat r)) (seq 0 W)) eqn:Ex.
      + apply existsb_exists in Ex as (r & Ir & T). apply in_seq in Ir. exists (q * W + r)%nat. rewrite <- E, F in T by lia. apply andb_true_iff in T as [T1 T2]. apply Nat.ltb_lt in T1. auto.
      + exfalso. apply X. apply (BsProof.val_ext t); [rewrite <- E; eapply nth_val; exact R|apply zero_word|]. intros r Hr. rewrite Z.bits_0.
        destruct (Z.testbit x (Z.of_nat r)) eqn:T; [|reflexivity]. assert (H : existsb (fun r => Z.testbit x (Z.of_nat r)) (seq 0 W) = true) by (apply existsb_exists; exists r; split; [apply in_seq; lia|exact T]). congruence.
    - intros (i & I & Fi). pose proof R as [A _]. destruct (in_qr t i (length w) ltac:(lia)) as (q & r & Q & Hr & ->). exists (nth q w 0). split; [apply nth_In, Q|].
      apply negb_true_iff, Z.eqb_neq. intros Z0. pose proof (F q r Q Hr) as H. rewrite Z0, Z.bits_0, Fi in H. replace (Nat.ltb (q * W + r) N) with true in H by (symmetry; apply Nat.ltb_lt; exact I). discriminate.
  Qed.
  Lemma none_lemma N w f : bits_are N w f -> bs_none w = true <-> forall i, (i < N)%nat -> f i = false.
  Proof.
    intros F. unfold bs_none. rewrite negb_true_iff, <- not_true_iff_false. change (any_words w) with (bs_any w). rewrite (any_lemma N w f F). split.
    - intros H i I. destruct (f i) eqn:E; [|reflexivity]. exfalso. eauto.
    - intros H (i & I & E). rewrite H in E by exact I. discriminate.
  Qed.
  Definition full (N n q : nat) : Z := if Nat.ltb (q + 1) n then all1 t else shrv t (all1 t) (n * W - N).
  Lemma full_ok N n q r : (N <= n * W < N + W)%nat -> (q < n)%nat -> (r < W)%nat ->
    is_val t (full N n q) /\ Z.testbit (full N n q) (Z.of_nat r) = Nat.ltb (q * W + r) N.
  Proof.
    intros A Q Hr. destruct (all1_word t) as [V B]. unfold full. destruct (Nat.ltb_spec (q + 1) n) as [L|L].
    - split; [exact V|]. rewrite B by exact Hr. symmetry. apply Nat.ltb_lt. nia.
    - split; [apply shrv_val; [exact U|exact V|lia]|]. rewrite shrv_bit by (try assumption; lia). assert (n = q + 1)%nat by lia. subst n.
      destruct (Nat.ltb_spec (q * W + r) N) as [D|D]; [apply B; nia|apply (val_high t U _ _ V); nia].
  Qed.
  Lemma all_words_ok N w : raw N w -> exists b, all_words t N w = Ok b /\ (b = true <-> forall q, (q < length w)%nat -> nth q w 0 = full N (length w) q).
  Proof.
    intros [A F]. destruct (all1_word t) as [V B]. destruct (wpos t) as [Wz Wp]. destruct w as [|x [|y w0]].
    - exists true. split; [reflexivity|]. cbn [length]. split; [lia|reflexivity].
    - cbn [all_words length] in *. replace (wid t - Z.of_nat N) with (Z.of_nat (1 * W - N)) by lia. rewrite shr_eq by (try assumption; lia). cbn [bind].
      eexists. split; [reflexivity|]. rewrite Z.eqb_eq. split; [intros E q Q; assert (q = 0)%nat as -> by lia; cbn [nth]; exact E|intros H; exact (H 0%nat ltac:(lia))].
    - assert (L2 : (1 < length (x :: y :: w0))%nat) by (cbn [length]; lia). unfold all_words. set (w := x :: y :: w0) in *. change (match w with [] => Ok true | _ => _ end) with
        (if forallb (fun x => x =? all1 t) (firstn (length w - 1) w) then h <- rd w (length w - 1) ;; m <- shr t (all1 t) (Z.of_nat (length w) * wid t - Z.of_nat N) ;; Ok (h =? m) else Ok false).
      clearbody w. clear x y w0.
      assert (Lo : forallb (fun x => x =? all1 t) (firstn (length w - 1) w) = true <-> forall q, (q + 1 < length w)%nat -> nth q w 0 = all1 t).
      { rewrite forallb_forall. split.
        - intros H q Q. apply Z.eqb_eq, H. replace (nth q w 0) with (nth q (firstn (length w - 1) w ++ skipn (length w - 1) w) 0) by (rewrite firstn_skipn; reflexivity). rewrite app_nth1 by (rewrite firstn_length; lia). apply nth_In. rewrite firstn_length. lia.
        - intros H z I. apply (In_nth _ _ 0) in I as (q & Q & <-). rewrite firstn_length in Q. apply Z.eqb_eq. rewrite <- (H q) by lia.
          transitivity (nth q (firstn (length w - 1) w ++ skipn (length w - 1) w) 0); [rewrite app_nth1 by (rewrite firstn_length; lia); reflexivity|rewrite firstn_skipn; reflexivity]. }
      destruct (forallb _ _).
      + rewrite rd_nth_d by lia. cbn [bind]. replace (Z.of_nat (length w) * wid t - Z.of_nat N) with (Z.of_nat (length w * W - N)) by nia. rewrite shr_eq by (try assumption; lia). cbn [bind].
        eexists. split; [reflexivity|]. rewrite Z.eqb_eq. pose proof (proj1 Lo eq_refl) as Lo'. split.
        * intros E q Q. unfold full. destruct (Nat.ltb_spec (q + 1) (length w)) as [D|D]; [apply Lo', D|]. replace q with (length w - 1)%nat by lia. exact E.
        * intros H. rewrite (H (length w - 1)%nat) by lia. unfold full. replace (Nat.ltb (length w - 1 + 1) (length w)) with false by (symmetry; apply Nat.ltb_ge; lia). reflexivity.
      + exists false. split; [reflexivity|]. split; [discriminate|]. intros H. apply Lo. intros q Q. rewrite H by lia. unfold full.
        replace (Nat.ltb (q + 1) (length w)) with true by (symmetry; apply Nat.ltb_lt; lia). reflexivity.
  Qed.
  Lemma all_lemma N w f : bits_are N w f -> exists b, bs_all t N w = Ok b /\ (b = true <-> forall i, (i < N)%nat -> f i = true).
  Proof.
    intros F. pose proof (bits_raw _ _ _ _ F) as R. destruct (all_words_ok N w R) as (b & E & H). exists b. split; [exact E|]. rewrite H. clear H E b.
    apply bits_qr in F as [_ F]. pose proof R as [A _]. split.
    - intros H i I. destruct (in_qr t i (length w) ltac:(lia)) as (q & r & Q & Hr & ->). pose proof (F q r Q Hr) as Fq. rewrite H in Fq by exact Q.
      rewrite (proj2 (full_ok N _ q r A Q Hr)) in Fq. replace (Nat.ltb (q * W + r) N) with true in Fq by (symmetry; apply Nat.ltb_lt; exact I). symmetry. exact Fq.
    - intros H q Q. apply (BsProof.val_ext t); [eapply nth_val; exact R|apply (full_ok N _ q 0 A Q); pose proof (wpos t); lia|].
      intros r Hr. rewrite F by assumption. rewrite (proj2 (full_ok N _ q r A Q Hr)). destruct (Nat.ltb_spec (q * W + r) N) as [D|D]; [cbn [andb]; apply H, D|reflexivity].
  Qed.

  (** ** Counting *)
  Lemma how_many_ext f g n : (forall i, (i < n)%nat -> f i = g i) -> how_many f n = how_many g n.
  Proof. induction n as [|n IH]; intros H; cbn [how_many]; [reflexivity|]. rewrite IH by (intros; apply H; lia). rewrite H by lia. reflexivity. Qed.
  Lemma how_many_app f a b : how_many f (a + b) = how_many f a + how_many (fun i => f (a + i)%nat) b.
  Proof. induction b as [|b IH]; [rewrite Nat.add_0_r; cbn [how_many]; lia|]. rewrite Nat.add_succ_r. cbn [how_many]. rewrite IH. lia. Qed.
  Lemma how_many_none f n : (forall i, (i < n)%nat -> f i = false) -> how_many f n = 0.
  Proof. induction n as [|n IH]; intros H; cbn [how_many]; [reflexivity|]. rewrite IH by (intros; apply H; lia). rewrite H by lia. reflexivity. Qed.
  Lemma ones_how x n : count_ones x n = how_many (fun i => Z.testbit x (Z.of_nat i)) n.
  Proof. induction n as [|n IH]; cbn [count_ones how_many]; [reflexivity|]. rewrite IH. destruct (Z.testbit x (Z.of_nat n)); cbn [Z.b2z]; lia. Qed.
  Lemma count_words_ok il bi d : wid t <= tmax (int_t il) -> wid t < Z.of_nat d -> forall w c,
    count_words il bi t d c w = Ok (c + how_many (bit_at w) (length w * W)).
  Proof.
    intros WT Hd. induction w as [|x w IH]; intros c; cbn [count_words length]; [rewrite Nat.mul_0_l; cbn [how_many]; f_equal; lia|].
    rewrite popcount_lemma by assumption. cbn [bind]. rewrite IH. f_equal. rewrite Nat.mul_succ_l, Nat.add_comm, how_many_app.
    rewrite ones_in_count, ones_how. replace (how_many (fun i => Z.testbit x (Z.of_nat i)) W) with (how_many (bit_at (x :: w)) W).
    2:{ apply how_many_ext. intros i I. replace i with (0 * W + i)%nat at 1 by lia. rewrite bit_qr by exact I. reflexivity. }
    replace (how_many (fun i => bit_at (x :: w) (W + i)) (length w * W)) with (how_many (bit_at w) (length w * W)); [lia|].
    apply how_many_ext. intros i I. destruct (in_qr t i _ I) as (q & r & Q & Hr & ->). replace (W + (q * W + r))%nat with (S q * W + r)%nat by lia.
    rewrite !bit_qr by exact Hr. reflexivity.
  Qed.
  Lemma count_lemma il bi d N w f : wid t <= tmax (int_t il) -> wid t < Z.of_nat d -> bits_are N w f -> bs_count il bi t d w = Ok (how_many f N).
  Proof.
    intros WT Hd (A & _ & F). unfold bs_count. rewrite count_words_ok by assumption. f_equal. rewrite Z.add_0_l.
    replace (length w * W)%nat with (N + (length w * W - N))%nat at 1 by lia. rewrite how_many_app.
    rewrite (how_many_none (fun i => bit_at w (N + i))); [rewrite Z.add_0_r; apply how_many_ext|]; intros i I; rewrite F by lia.
    - replace (Nat.ltb i N) with true by (symmetry; apply Nat.ltb_lt; exact I). reflexivity.
    - replace (Nat.ltb (N + i) N) with false by (symmetry; apply Nat.ltb_ge; lia). reflexivity.
  Qed.
End Bs.
