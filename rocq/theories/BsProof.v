(** Proofs about bitsets. *)
From Coq Require Import List Arith ZArith Bool Lia.
From Verif Require Import Base BitModel BitSpec BitProof ShaProof MdProof MtModel MtProof BsModel BsSpec.
Import ListNotations.
Open Scope Z_scope.

(** ** Loops *)

Lemma tab_from_ok {A} (f : nat -> res A) g n : forall i, (forall j, (i <= j < i + n)%nat -> f j = Ok (g j)) -> tab_from f i n = Ok (map g (seq i n)).
Proof.
  induction n as [|n IH]; intros i H; [reflexivity|]. cbn [tab_from seq map]. rewrite H by lia. cbn [bind].
  rewrite IH by (intros j J; apply H; lia). reflexivity.
Qed.
Lemma tab_ok {A} (f : nat -> res A) g n : (forall j, (j < n)%nat -> f j = Ok (g j)) -> tab n f = Ok (map g (seq 0 n)).
Proof. intros H. apply tab_from_ok. intros j J. apply H. lia. Qed.

Lemma upd_len {A} (l : list A) i x : length (upd l i x) = length l.
Proof. revert i. induction l as [|y l IH]; intros [|i]; cbn [upd length]; auto. Qed.
Lemma wr_ok {A} (l : list A) i x : (i < length l)%nat -> wr l i x = Ok (upd l i x).
Proof. intros H. unfold wr. replace (Nat.ltb i (length l)) with true by (symmetry; now apply Nat.ltb_lt). reflexivity. Qed.

Lemma for_upd k g : forall lo body (w : list Z) n, length w = n -> (lo + k <= n)%nat ->
  (forall i l, (lo <= i < lo + k)%nat -> length l = n -> (forall j, (i <= j)%nat -> nth j l 0 = nth j w 0) -> body i l = Ok (upd l i (g i))) ->
  exists l, for_ k lo body w = Ok l /\ length l = n /\
    forall j, (j < n)%nat -> nth j l 0 = if Nat.leb lo j && Nat.ltb j (lo + k) then g j else nth j w 0.
Proof.
  induction k as [|k IH]; intros lo body w n L K H.
  - exists w. split; [reflexivity|]. split; [exact L|]. intros j J.
    replace (Nat.leb lo j && Nat.ltb j (lo + 0)) with false; [reflexivity|]. symmetry. apply andb_false_iff. rewrite Nat.leb_gt, Nat.ltb_ge. lia.
  - cbn [for_]. rewrite (H lo w) by (try assumption; try lia; auto). cbn [bind].
    destruct (IH (S lo) body (upd w lo (g lo)) n) as (l & E & Ll & N); [now rewrite upd_len|lia| |].
    { intros i l I1 I2 I3. apply H; [lia|exact I2|]. intros j J. rewrite I3 by lia. apply upd_nth_neq'. lia. }
    exists l. split; [exact E|]. split; [exact Ll|]. intros j J. rewrite (N j J).
    destruct (Nat.eq_dec j lo) as [->|Nj].
    + replace (Nat.leb (S lo) lo) with false by (symmetry; apply Nat.leb_gt; lia). cbn [andb].
      rewrite upd_nth_eq' by lia. rewrite Nat.leb_refl. replace (Nat.ltb lo (lo + S k)) with true by (symmetry; apply Nat.ltb_lt; lia). reflexivity.
    + rewrite upd_nth_neq' by lia. replace (Nat.ltb j (lo + S k)) with (Nat.ltb j (S lo + k)) by (f_equal; lia).
      replace (Nat.leb lo j) with (Nat.leb (S lo) j); [reflexivity|]. apply eq_iff_eq_true. rewrite !Nat.leb_le. lia.
Qed.
Lemma down_upd g : forall i0 stop body (w : list Z) n, length w = n -> (0 < stop)%nat -> (i0 < n)%nat ->
  (forall i l, (stop <= i <= i0)%nat -> length l = n -> (forall j, (j <= i)%nat -> nth j l 0 = nth j w 0) -> body i l = Ok (upd l i (g i))) ->
  exists l, down i0 stop body w = Ok l /\ length l = n /\
    forall j, (j < n)%nat -> nth j l 0 = if Nat.leb stop j && Nat.leb j i0 then g j else nth j w 0.
Proof.
  induction i0 as [|i0 IH]; intros stop body w n L S0 K H; cbn [down].
  - replace (Nat.ltb 0 stop) with true by (symmetry; apply Nat.ltb_lt; lia). exists w. split; [reflexivity|]. split; [exact L|]. intros j J.
    replace (Nat.leb stop j && Nat.leb j 0) with false; [reflexivity|]. symmetry. apply andb_false_iff. rewrite !Nat.leb_gt. lia.
  - destruct (Nat.ltb_spec (S i0) stop) as [Q|Q].
    + exists w. split; [reflexivity|]. split; [exact L|]. intros j J.
      replace (Nat.leb stop j && Nat.leb j (S i0)) with false; [reflexivity|]. symmetry. apply andb_false_iff. rewrite !Nat.leb_gt. lia.
    + rewrite (H (S i0) w) by (try assumption; try lia; auto). cbn [bind].
      destruct (IH stop body (upd w (S i0) (g (S i0))) n) as (l & E & Ll & N); [now rewrite upd_len|lia|lia| |].
      { intros i l I1 I2 I3. apply H; [lia|exact I2|]. intros j J. rewrite I3 by lia. apply upd_nth_neq'. lia. }
      exists l. split; [exact E|]. split; [exact Ll|]. intros j J. rewrite (N j J).
      destruct (Nat.eq_dec j (S i0)) as [->|Nj].
      * replace (Nat.leb (S i0) i0) with false by (symmetry; apply Nat.leb_gt; lia). rewrite andb_false_r.
        rewrite upd_nth_eq' by lia. rewrite Nat.leb_refl. replace (Nat.leb stop (S i0)) with true by (symmetry; apply Nat.leb_le; lia). reflexivity.
      * rewrite upd_nth_neq' by lia. replace (Nat.leb j (S i0)) with (Nat.leb j i0); [reflexivity|]. apply eq_iff_eq_true. rewrite !Nat.leb_le. lia.
Qed.
Lemma nth_map_seq (l : list Z) g n : length l = n -> (forall j, (j < n)%nat -> nth j l 0 = g j) -> l = map g (seq 0 n).
Proof. intros L H. apply list_ext; [now rewrite map_length, seq_length|]. intros i I. rewrite map_seq_nth by lia. apply H. lia. Qed.
Lemma for_all_upd g body (w : list Z) :
  (forall i l, (i < length w)%nat -> length l = length w -> (forall j, (i <= j)%nat -> nth j l 0 = nth j w 0) -> body i l = Ok (upd l i (g i))) ->
  for_ (length w) 0 body w = Ok (map g (seq 0 (length w))).
Proof.
  intros H. destruct (for_upd (length w) g 0 body w (length w)) as (l & E & L & N); [reflexivity|lia|intros i l I; apply H; lia|].
  rewrite E. f_equal. apply nth_map_seq; [exact L|]. intros j J. rewrite (N j J). cbn [Nat.leb andb Nat.add].
  replace (Nat.ltb j (length w)) with true by (symmetry; apply Nat.ltb_lt; exact J). reflexivity.
Qed.

Section Bs.
  Variable t : ity.
  Hypothesis U : sgn t = false.
  Notation W := (Z.to_nat (wid t)).
  Notation bit_at := (bit_at t).
  Notation bits_are := (bits_are t).

  Lemma wpos : wid t = Z.of_nat W /\ (8 <= W)%nat.
  Proof. pose proof (wid_ge t). lia. Qed.
  Lemma val_range x : is_val t x <-> 0 <= x < 2 ^ Z.of_nat W.
  Proof. unfold is_val. rewrite U. destruct wpos as [<- _]. reflexivity. Qed.
  Lemma val_high x r : is_val t x -> (W <= r)%nat -> Z.testbit x (Z.of_nat r) = false.
  Proof. intros V R. apply val_range in V. apply (proj1 (lt_pow_bits x (Z.of_nat W) ltac:(lia) ltac:(lia)) V). lia. Qed.
  Lemma val_of_bits x : 0 <= x -> (forall r, (W <= r)%nat -> Z.testbit x (Z.of_nat r) = false) -> is_val t x.
  Proof.
    intros X H. apply val_range. apply (lt_pow_bits x (Z.of_nat W)); [lia|exact X|]. intros i I.
    replace i with (Z.of_nat (Z.to_nat i)) by lia. apply H. lia.
  Qed.
  Lemma val_ext x y : is_val t x -> is_val t y -> (forall r, (r < W)%nat -> Z.testbit x (Z.of_nat r) = Z.testbit y (Z.of_nat r)) -> x = y.
  Proof.
    intros X Y H. apply (BitProof.val_ext t x y X Y). intros i I. replace i with (Z.of_nat (Z.to_nat i)) by lia. apply H. lia.
  Qed.

  (** ** Words *)
  Lemma shl_word a s : (s < W)%nat -> exists y, shl true t a (Z.of_nat s) = Ok y /\ is_val t y /\
    forall r, (r < W)%nat -> Z.testbit y (Z.of_nat r) = (Nat.leb s r && Z.testbit a (Z.of_nat (r - s)))%bool.
  Proof.
    intros S. unfold shl. destruct wpos as [Wz Wp]. replace (0 <=? Z.of_nat s) with true by (symmetry; apply Z.leb_le; lia).
    replace (Z.of_nat s <? wid t) with true by (symmetry; apply Z.ltb_lt; lia). rewrite U. cbn [andb]. eexists. split; [reflexivity|].
    split; [apply conv_val|]. intros r R. rewrite conv_bits by lia. rewrite <- Z.shiftl_mul_pow2 by lia.
    destruct (Nat.leb_spec s r) as [L|L]; cbn [andb].
    - rewrite Z.shiftl_spec by lia. f_equal. lia.
    - apply Z.shiftl_spec_low. lia.
  Qed.
  Lemma shr_word a s : is_val t a -> (s < W)%nat -> exists y, shr t a (Z.of_nat s) = Ok y /\ is_val t y /\
    forall r, Z.testbit y (Z.of_nat r) = Z.testbit a (Z.of_nat (r + s)).
  Proof.
    intros A S. unfold shr. destruct wpos as [Wz Wp]. replace (0 <=? Z.of_nat s) with true by (symmetry; apply Z.leb_le; lia).
    replace (Z.of_nat s <? wid t) with true by (symmetry; apply Z.ltb_lt; lia). cbn [andb]. eexists. split; [reflexivity|].
    assert (B : forall r, Z.testbit (Z.shiftr a (Z.of_nat s)) (Z.of_nat r) = Z.testbit a (Z.of_nat (r + s))).
    { intros r. rewrite Z.shiftr_spec by lia. f_equal. lia. }
    split; [|exact B]. apply val_of_bits; [apply Z.shiftr_nonneg; apply val_range in A; lia|].
    intros r R. rewrite B. apply val_high; [exact A|lia].
  Qed.
  Lemma cpl_word a : is_val t (cpl t a) /\ forall r, (r < W)%nat -> Z.testbit (cpl t a) (Z.of_nat r) = negb (Z.testbit a (Z.of_nat r)).
  Proof. split; [apply conv_val|]. intros r R. apply cpl_bits. destruct wpos. lia. Qed.
  Lemma all1_word : is_val t (all1 t) /\ forall r, (r < W)%nat -> Z.testbit (all1 t) (Z.of_nat r) = true.
  Proof. destruct (cpl_word 0) as [V B]. split; [exact V|]. intros r R. unfold all1. rewrite B by exact R. rewrite Z.bits_0. reflexivity. Qed.
  Lemma or_word a b : is_val t a -> is_val t b -> is_val t (Z.lor a b).
  Proof.
    intros A B. apply val_of_bits; [apply Z.lor_nonneg; apply val_range in A; apply val_range in B; lia|].
    intros r R. rewrite Z.lor_spec, (val_high a), (val_high b) by assumption. reflexivity.
  Qed.
  Lemma and_word a b : is_val t a -> is_val t b -> is_val t (Z.land a b).
  Proof.
    intros A B. apply val_of_bits; [apply Z.land_nonneg; apply val_range in A; lia|].
    intros r R. rewrite Z.land_spec, (val_high a) by assumption. reflexivity.
  Qed.
  Lemma xor_word a b : is_val t a -> is_val t b -> is_val t (Z.lxor a b).
  Proof.
    intros A B. apply val_of_bits; [apply Z.lxor_nonneg; apply val_range in A; apply val_range in B; lia|].
    intros r R. rewrite Z.lxor_spec, (val_high a), (val_high b) by assumption. reflexivity.
  Qed.
  Lemma zero_word : is_val t 0. Proof. apply val_0. Qed.
  Lemma mask_word pos : exists m, maskbit t pos = Ok m /\ is_val t m /\
    forall r, (r < W)%nat -> Z.testbit m (Z.of_nat r) = Nat.eqb r (pos mod W).
  Proof.
    destruct wpos as [_ Wp]. unfold maskbit, whichbit, wbits.
    assert (Lp : (pos mod W < W)%nat) by (apply Nat.mod_upper_bound; lia).
    destruct (shl_word 1 (pos mod W) Lp) as (m & E & V & B). exists m. split; [exact E|]. split; [exact V|]. intros r R. rewrite B by exact R.
    destruct (Nat.leb_spec (pos mod W) r) as [L|L]; cbn [andb].
    - destruct (Nat.eqb_spec r (pos mod W)) as [->|Ne]; [rewrite Nat.sub_diag; reflexivity|].
      destruct (r - pos mod W)%nat as [|k] eqn:K; [lia|]. rewrite Nat2Z.inj_succ.
      change 1 with (2 ^ 0). apply Z.pow2_bits_false. lia.
    - symmetry. apply Nat.eqb_neq. lia.
  Qed.

  (** ** The view by words *)
  Definition raw (N : nat) (w : list Z) : Prop := (N <= length w * W < N + W)%nat /\ Forall (is_val t) w.
  Lemma divW q r : (r < W)%nat -> ((q * W + r) / W = q /\ (q * W + r) mod W = r)%nat.
  Proof.
    intros R. split; [rewrite Nat.div_add_l by lia; rewrite Nat.div_small by exact R; lia|].
    rewrite Nat.add_comm, Nat.mod_add by lia. apply Nat.mod_small, R.
  Qed.
  Lemma bit_qr w q r : (r < W)%nat -> bit_at w (q * W + r) = Z.testbit (nth q w 0) (Z.of_nat r).
  Proof. intros R. unfold BsSpec.bit_at. destruct (divW q r R) as [-> ->]. reflexivity. Qed.
  Lemma in_qr i n : (i < n * W)%nat -> exists q r, (q < n /\ r < W /\ i = q * W + r)%nat.
  Proof.
    intros I. destruct wpos as [_ Wp]. exists (i / W)%nat, (i mod W)%nat. split; [apply Nat.div_lt_upper_bound; lia|].
    split; [apply Nat.mod_upper_bound; lia|]. pose proof (Nat.div_mod i W ltac:(lia)). lia.
  Qed.
  Lemma lt_qr q r n : (q < n)%nat -> (r < W)%nat -> (q * W + r < n * W)%nat.
  Proof. nia. Qed.
  Lemma nth_val N w q : raw N w -> is_val t (nth q w 0).
  Proof.
    intros [_ F]. destruct (Nat.lt_ge_cases q (length w)) as [L|L]; [|rewrite nth_overflow by exact L; exact zero_word].
    rewrite Forall_forall in F. apply F, nth_In, L.
  Qed.
  Lemma bits_qr N w f : bits_are N w f <-> raw N w /\
    forall q r, (q < length w)%nat -> (r < W)%nat -> Z.testbit (nth q w 0) (Z.of_nat r) = (Nat.ltb (q * W + r) N && f (q * W + r)%nat)%bool.
  Proof.
    split.
    - intros (A & B & C). split; [split; assumption|]. intros q r Q R. rewrite <- bit_qr by exact R. apply C. apply lt_qr; assumption.
    - intros ((A & B) & C). split; [exact A|]. split; [exact B|]. intros i I. destruct (in_qr i _ I) as (q & r & Q & R & ->). rewrite bit_qr by exact R. apply C; assumption.
  Qed.
  Lemma bits_raw N w f : bits_are N w f -> raw N w.
  Proof. intros (A & B & _). split; assumption. Qed.
  Lemma raw_length N w x : raw N w -> raw N x -> length w = length x.
  Proof. intros [A _] [B _]. destruct wpos as [_ Wp]. nia. Qed.
  Lemma bits_ext N w f g : bits_are N w f -> (forall i, (i < N)%nat -> f i = g i) -> bits_are N w g.
  Proof.
    intros (A & B & C) H. split; [exact A|]. split; [exact B|]. intros i I. rewrite C by exact I.
    destruct (Nat.ltb_spec i N) as [L|L]; cbn [andb]; [apply H, L|reflexivity].
  Qed.
  Lemma bits_of N w : raw N w -> (forall i, (N <= i < length w * W)%nat -> bit_at w i = false) -> bits_are N w (bit_at w).
  Proof.
    intros [A B] H. split; [exact A|]. split; [exact B|]. intros i I. destruct (Nat.ltb_spec i N) as [L|L]; cbn [andb]; [reflexivity|apply H; lia].
  Qed.
  Lemma map_raw N w g : raw N w -> (forall q, (q < length w)%nat -> is_val t (g q)) -> raw N (map g (seq 0 (length w))).
  Proof.
    intros [A _] H. split; [rewrite map_length, seq_length; exact A|]. apply Forall_forall. intros x I. apply in_map_iff in I as (q & <- & I).
    apply in_seq in I. apply H. lia.
  Qed.
  Lemma map_bits N w g f : raw N w -> (forall q, (q < length w)%nat -> is_val t (g q)) ->
    (forall q r, (q < length w)%nat -> (r < W)%nat -> Z.testbit (g q) (Z.of_nat r) = (Nat.ltb (q * W + r) N && f (q * W + r)%nat)%bool) ->
    bits_are N (map g (seq 0 (length w))) f.
  Proof.
    intros R V B. apply bits_qr. split; [apply map_raw; assumption|]. intros q r Q Hr. rewrite map_length, seq_length in Q. rewrite map_seq_nth by exact Q. apply B; assumption.
  Qed.

  (** ** Sanitizing *)
  Lemma sanitize_ok N w : raw N w -> exists w', sanitize t N w = Ok w' /\ bits_are N w' (bit_at w).
  Proof.
    intros R. pose proof R as [A F]. destruct wpos as [Wz Wp].
    assert (Hm : (N = N / W * W + N mod W)%nat) by (pose proof (Nat.div_mod N W ltac:(lia)); lia).
    pose proof (Nat.mod_upper_bound N W ltac:(lia)) as Mb. unfold sanitize, wbits.
    destruct w as [|x w0].
    { exists []. split; [reflexivity|]. apply bits_of; [exact R|]. cbn [length]. lia. }
    set (w := x :: w0) in *. assert (Ln : (0 < length w)%nat) by (unfold w; cbn [length]; lia). change (match w with [] => Ok w | _ :: _ => _ end) with
      (if Nat.eqb (N mod W) 0 then Ok w else h <- rd w (length w - 1) ;; m <- shl true t (all1 t) (Z.of_nat (N mod W)) ;; wr w (length w - 1) (Z.land h (cpl t m))).
    destruct (Nat.eqb_spec (N mod W) 0) as [Z0|Z0].
    { exists w. split; [reflexivity|]. apply bits_of; [exact R|]. intros i I. exfalso. assert (length w = N / W)%nat by nia. nia. }
    rewrite rd_nth_d by lia. cbn [bind]. destruct (shl_word (all1 t) (N mod W) Mb) as (m & -> & Vm & Bm). cbn [bind].
    rewrite wr_ok by lia. eexists. split; [reflexivity|].
    assert (Ls : (length w = N / W + 1)%nat) by nia.
    destruct (cpl_word m) as [Vc Bc].
    apply bits_qr. rewrite upd_len. split.
    - split; [rewrite upd_len; exact A|]. apply Forall_forall. intros y Y. apply (In_nth _ _ 0) in Y as (q & Q & <-). rewrite upd_len in Q.
      destruct (Nat.eq_dec q (length w - 1)) as [->|Ne]; [rewrite upd_nth_eq' by lia; apply and_word; [eapply nth_val, R|exact Vc]|].
      rewrite upd_nth_neq' by lia. eapply nth_val, R.
    - intros q r Q Hr. rewrite bit_qr by exact Hr.
      destruct (Nat.eq_dec q (length w - 1)) as [->|Ne].
      + rewrite upd_nth_eq' by lia. rewrite Z.land_spec, Bc, Bm by exact Hr. rewrite (proj2 all1_word) by lia. rewrite andb_true_r, andb_comm. f_equal.
        replace (length w - 1)%nat with (N / W)%nat by lia. apply eq_iff_eq_true. rewrite negb_true_iff, Nat.leb_gt, Nat.ltb_lt. lia.
      + rewrite upd_nth_neq' by lia. replace (Nat.ltb (q * W + r) N) with true; [reflexivity|]. symmetry. apply Nat.ltb_lt. nia.
  Qed.

  (** ** The operations on all bits *)
  Lemma zip_eq cst f w x : length w = length x -> zip_words cst f w x = Ok (map (fun i => f (nth i w 0) (nth i x 0)) (seq 0 (length w))).
  Proof.
    intros L. unfold zip_words. destruct cst.
    - apply tab_ok. intros j J. rewrite !rd_nth_d by lia. reflexivity.
    - apply for_all_upd. intros i l I Ll H. rewrite !rd_nth_d by lia. cbn [bind]. rewrite wr_ok by lia. rewrite H by lia. reflexivity.
  Qed.
  Lemma fill_eq cst v w : fill_words cst v w = Ok (map (fun _ => v) (seq 0 (length w))).
  Proof.
    unfold fill_words. destruct cst; [apply tab_ok; reflexivity|]. apply (for_all_upd (fun _ => v)). intros i l I Ll H. apply wr_ok. lia.
  Qed.
  Lemma flip_eq cst w : flip_words t cst w = Ok (map (fun i => cpl t (nth i w 0)) (seq 0 (length w))).
  Proof.
    unfold flip_words. destruct cst.
    - apply tab_ok. intros j J. rewrite rd_nth_d by lia. reflexivity.
    - apply for_all_upd. intros i l I Ll H. rewrite rd_nth_d by lia. cbn [bind]. rewrite wr_ok by lia. rewrite H by lia. reflexivity.
  Qed.

  Lemma zip_lemma cst N (op : Z -> Z -> Z) (bo : bool -> bool -> bool) w x f g :
    (forall a b, is_val t a -> is_val t b -> is_val t (op a b)) -> (forall a b i, Z.testbit (op a b) i = bo (Z.testbit a i) (Z.testbit b i)) -> bo false false = false ->
    bits_are N w f -> bits_are N x g -> exists r, zip_words cst op w x = Ok r /\ bits_are N r (fun i => bo (f i) (g i)).
  Proof.
    intros V S B0 F G. pose proof (bits_raw _ _ _ F) as Rw. pose proof (bits_raw _ _ _ G) as Rx. pose proof (raw_length _ _ _ Rw Rx) as L.
    rewrite zip_eq by exact L. eexists. split; [reflexivity|]. apply bits_qr in F as [_ F]. apply bits_qr in G as [_ G].
    apply map_bits; [exact Rw| |].
    - intros q Q. apply V; eapply nth_val; eassumption.
    - intros q r Q R. rewrite S, F, G by (try assumption; lia). destruct (Nat.ltb (q * W + r) N); cbn [andb]; [reflexivity|exact B0].
  Qed.
  Lemma fill_lemma cst N w : raw N w -> exists r, fill_words cst 0 w = Ok r /\ bits_are N r (fun _ => false).
  Proof.
    intros R. rewrite fill_eq. eexists. split; [reflexivity|]. apply map_bits; [exact R|intros; exact zero_word|].
    intros q r Q Hr. rewrite Z.bits_0, andb_false_r. reflexivity.
  Qed.
  Lemma set_all_lemma cst N w : raw N w -> exists r, bs_set_all t N cst w = Ok r /\ bits_are N r (fun _ => true).
  Proof.
    intros R. unfold bs_set_all. rewrite fill_eq. cbn [bind]. destruct all1_word as [V B].
    assert (R' : raw N (map (fun _ : nat => all1 t) (seq 0 (length w)))) by (apply map_raw; [exact R|intros; exact V]).
    destruct (sanitize_ok N _ R') as (r & -> & H). exists r. split; [reflexivity|]. eapply bits_ext; [exact H|].
    intros i I. destruct R as [A _]. destruct (in_qr i (length w) ltac:(lia)) as (q & p & Q & P & ->). rewrite bit_qr by exact P. rewrite map_seq_nth by exact Q. apply B, P.
  Qed.
  Lemma flip_all_lemma cst N w f : bits_are N w f -> exists r, bs_flip_all t N cst w = Ok r /\ bits_are N r (fun i => negb (f i)).
  Proof.
    intros F. pose proof (bits_raw _ _ _ F) as R. unfold bs_flip_all. rewrite flip_eq. cbn [bind].
    assert (R' : raw N (map (fun i => cpl t (nth i w 0)) (seq 0 (length w)))) by (apply map_raw; [exact R|intros; apply cpl_word]).
    destruct (sanitize_ok N _ R') as (r & -> & H). exists r. split; [reflexivity|]. eapply bits_ext; [exact H|].
    intros i I. destruct R as [A _]. destruct (in_qr i (length w) ltac:(lia)) as (q & p & Q & P & ->). rewrite bit_qr by exact P. rewrite map_seq_nth by exact Q.
    rewrite (proj2 (cpl_word _)) by exact P. apply bits_qr in F as [_ F]. rewrite F by assumption.
    replace (Nat.ltb (q * W + p) N) with true by (symmetry; apply Nat.ltb_lt; exact I). reflexivity.
  Qed.
End Bs.
