(** Bitsets, numbers and strings. *)
From Coq Require Import List Arith ZArith Bool Lia.
From Verif Require Import Base BitModel BitSpec BitProof ShaProof MdProof MtModel MtProof BsModel BsSpec BsProof BsProof2 BsProof3.
Import ListNotations.
Open Scope Z_scope.

(** ** Numbers *)
Lemma number_range f n : 0 <= number_of f n < 2 ^ Z.of_nat n.
Proof.
  induction n as [|n IH]; [cbn; lia|]. cbn [number_of]. rewrite Nat2Z.inj_succ, Z.pow_succ_r by lia. destruct (f n); lia.
Qed.
Lemma number_bits f n i : Z.testbit (number_of f n) (Z.of_nat i) = (Nat.ltb i n && f i)%bool.
Proof.
  induction n as [|n IH]; [cbn [number_of]; rewrite Z.bits_0; reflexivity|]. cbn [number_of]. pose proof (number_range f n) as R.
  assert (E : Z.testbit (number_of f n + (if f n then 2 ^ Z.of_nat n else 0)) (Z.of_nat i) = (Z.testbit (number_of f n) (Z.of_nat i) || (Nat.eqb i n && f n))%bool).
  { destruct (f n); [|rewrite Z.add_0_r, andb_false_r, orb_false_r; reflexivity]. rewrite andb_true_r.
    assert (D : forall k, 0 <= k -> (Z.testbit (number_of f n) k && Z.testbit (2 ^ Z.of_nat n) k)%bool = false).
    { intros k K. rewrite Z.pow2_bits_eqb by lia. destruct (Z.eqb_spec (Z.of_nat n) k) as [<-|_]; [|apply andb_false_r].
      rewrite (proj1 (lt_pow_bits (number_of f n) (Z.of_nat n) ltac:(lia) ltac:(lia)) R) by lia. reflexivity. }
    rewrite Z.add_nocarry_lxor; [|apply Z.bits_inj'; intros k K; rewrite Z.land_spec, Z.bits_0; apply D, K].
    rewrite Z.lxor_spec, Z.pow2_bits_eqb by lia. replace (Z.of_nat n =? Z.of_nat i) with (Nat.eqb i n).
    2:{ apply eq_iff_eq_true. rewrite Nat.eqb_eq, Z.eqb_eq. lia. }
    destruct (Nat.eqb_spec i n) as [->|_]; [|rewrite xorb_false_r, orb_false_r; reflexivity]. rewrite IH, Nat.ltb_irrefl. reflexivity. }
  rewrite E, IH. destruct (Nat.eqb_spec i n) as [->|Ne]; cbn [andb].
  - rewrite Nat.ltb_irrefl. replace (Nat.ltb n (S n)) with true by (symmetry; apply Nat.ltb_lt; lia). reflexivity.
  - rewrite orb_false_r. replace (Nat.ltb i (S n)) with (Nat.ltb i n); [reflexivity|]. apply eq_iff_eq_true. rewrite !Nat.ltb_lt. lia.
Qed.
Lemma nat_bits_eq a b : (forall i : nat, Z.testbit a (Z.of_nat i) = Z.testbit b (Z.of_nat i)) -> a = b.
Proof. intros H. apply Z.bits_inj'. intros k K. replace k with (Z.of_nat (Z.to_nat k)) by lia. apply H. Qed.
Lemma number_app f a b : number_of f (a + b) = number_of f a + 2 ^ Z.of_nat a * number_of (fun i => f (a + i)%nat) b.
Proof.
  induction b as [|b IH]; [rewrite Nat.add_0_r; cbn [number_of]; lia|]. rewrite Nat.add_succ_r. cbn [number_of]. rewrite IH.
  destruct (f (a + b)%nat); [|lia]. rewrite Nat2Z.inj_add, Z.pow_add_r by lia. lia.
Qed.
Lemma number_eq f n g m : (forall i, (Nat.ltb i n && f i)%bool = (Nat.ltb i m && g i)%bool) -> number_of f n = number_of g m.
Proof. intros H. apply nat_bits_eq. intros i. rewrite !number_bits. apply H. Qed.

Section Bs.
  Variable t : ity.
  Hypothesis U : sgn t = false.
  Notation W := (Z.to_nat (wid t)).
  Notation bit_at := (bit_at t).
  Notation bits_are := (bits_are t).
  Notation raw := (raw t).

  Lemma nth_skip (w : list Z) k q : nth q (skipn k w) 0 = nth (k + q) w 0.
  Proof. revert w. induction k as [|k IH]; intros [|x w]; cbn [skipn Nat.add nth]; try reflexivity; [destruct q; reflexivity|apply IH]. Qed.
  Lemma nonzero_bit x : is_val t x -> x <> 0 -> exists r, (r < W)%nat /\ Z.testbit x (Z.of_nat r) = true.
  Proof.
    intros V X. destruct (existsb (fun r => Z.testbit x (Z.of_nat r)) (seq 0 W)) eqn:Ex.
    - apply existsb_exists in Ex as (r & Ir & T). apply in_seq in Ir. exists r. split; [lia|exact T].
    - exfalso. apply X. apply (BsProof.val_ext t); [exact V|apply zero_word|]. intros r Hr. rewrite Z.bits_0.
      destruct (Z.testbit x (Z.of_nat r)) eqn:T; [|reflexivity]. assert (H : existsb (fun r => Z.testbit x (Z.of_nat r)) (seq 0 W) = true) by (apply existsb_exists; exists r; split; [apply in_seq; lia|exact T]). congruence.
  Qed.
  Lemma any_from N w f k : bits_are N w f -> existsb (fun x => negb (x =? 0)) (skipn k w) = true <-> exists i, (k * W <= i < N)%nat /\ f i = true.
  Proof.
    intros F. pose proof (bits_raw _ _ _ _ F) as R. rewrite existsb_exists. apply bits_qr in F as [_ F]. split.
    - intros (x & I & X). apply negb_true_iff, Z.eqb_neq in X. apply (In_nth _ _ 0) in I as (q & Q & E). rewrite nth_skip in E. rewrite skipn_length in Q.
      destruct (nonzero_bit x) as (r & Hr & T); [rewrite <- E; eapply nth_val; exact R|exact X|].
      exists ((k + q) * W + r)%nat. rewrite <- E, F in T by lia. apply andb_true_iff in T as [T1 T2]. apply Nat.ltb_lt in T1. split; [nia|exact T2].
    - intros (i & I & Fi). pose proof R as [A _]. destruct (in_qr t i (length w) ltac:(lia)) as (q & r & Q & Hr & ->). assert (K : (k <= q)%nat) by nia.
      exists (nth q w 0). split.
      + replace (nth q w 0) with (nth (q - k) (skipn k w) 0) by (rewrite nth_skip; f_equal; lia). apply nth_In. rewrite skipn_length. lia.
      + apply negb_true_iff, Z.eqb_neq. intros Z0. pose proof (F q r Q Hr) as H. rewrite Z0, Z.bits_0, Fi in H. replace (Nat.ltb (q * W + r) N) with true in H by (symmetry; apply Nat.ltb_lt; lia). discriminate.
  Qed.
  Lemma any_from_false N w f k : bits_are N w f -> existsb (fun x => negb (x =? 0)) (skipn k w) = false <-> forall i, (k * W <= i < N)%nat -> f i = false.
  Proof.
    intros F. rewrite <- not_true_iff_false, (any_from N w f k F). split.
    - intros H i I. destruct (f i) eqn:E; [|reflexivity]. exfalso. eauto.
    - intros H (i & I & E). rewrite H in E by exact I. discriminate.
  Qed.
  Lemma word_number N w f q : bits_are N w f -> (q < length w)%nat -> nth q w 0 = number_of (fun i => Nat.ltb (q * W + i) N && f (q * W + i)%nat)%bool W.
  Proof.
    intros F Q. pose proof (bits_raw _ _ _ _ F) as R. assert (V : is_val t (nth q w 0)) by (eapply nth_val; exact R). apply nat_bits_eq. intros i. rewrite number_bits.
    destruct (Nat.ltb_spec i W) as [L|L]; cbn [andb]; [apply bits_qr in F as [_ F]; apply F; assumption|apply (val_high t U); assumption].
  Qed.
  Lemma ulong_lemma N w f : bits_are N w f ->
    ((forall i, (W <= i < N)%nat -> f i = false) -> ulong_words w = Val (number_of f N)) /\
    ((exists i, (W <= i < N)%nat /\ f i = true) -> ulong_words w = Overflow_error).
  Proof.
    intros F. pose proof (bits_raw _ _ _ _ F) as [A _].
    assert (E1 : forall x l, w = x :: l -> (forall i, (W <= i < N)%nat -> f i = false) -> x = number_of f N).
    { intros x l E H. pose proof (word_number N w f 0 F) as X. rewrite E in X. cbn [nth length] in X. rewrite X by lia. apply number_eq. intros i. cbn [Nat.mul Nat.add].
      destruct (Nat.ltb_spec i W) as [L|L]; cbn [andb]; [reflexivity|]. destruct (Nat.ltb_spec i N) as [D|D]; cbn [andb]; [symmetry; apply H; lia|reflexivity]. }
    destruct w as [|x [|y l]].
    - cbn [length] in A. assert (N = 0)%nat as -> by lia. split; [reflexivity|intros (i & I & _); lia].
    - cbn [length] in A. split; [intros H; cbn [ulong_words]; f_equal; eapply E1; [reflexivity|exact H]|intros (i & I & _); lia].
    - pose proof (any_from N _ f 1 F) as H1. pose proof (any_from_false N _ f 1 F) as H2. rewrite Nat.mul_1_l in H1, H2. cbn [skipn] in H1, H2.
      unfold ulong_words. split; intros H.
      + rewrite (proj2 H2 H). f_equal. eapply E1; [reflexivity|exact H].
      + rewrite (proj2 H1 H). reflexivity.
  Qed.
  Lemma ullong_lemma N w f : wid t = 32 \/ wid t = 64 -> bits_are N w f ->
    ((forall i, (64 <= i < N)%nat -> f i = false) -> ullong_words t w = Ok (Val (number_of f N))) /\
    ((exists i, (64 <= i < N)%nat /\ f i = true) -> ullong_words t w = Ok Overflow_error).
  Proof.
    intros WW F. pose proof (bits_raw _ _ _ _ F) as [A _].
    destruct (ulong_lemma N w f F) as [Lo Hi].
    assert (Ws : W = 32%nat \/ W = 64%nat) by lia.
    destruct w as [|x [|y l]].
    - cbn [length] in A. assert (N = 0)%nat as -> by lia. split; [reflexivity|intros (i & I & _); lia].
    - cbn [length] in A. split; [|intros (i & I & _); lia]. intros _. cbn [ullong_words ulong_words] in *. f_equal. apply Lo. intros i I. lia.
    - unfold ullong_words. change (wid ull) with 64. destruct Ws as [E|E].
      + replace (wid t <? 64) with true by (symmetry; apply Z.ltb_lt; lia).
        pose proof (any_from N _ f 2 F) as H1. pose proof (any_from_false N _ f 2 F) as H2. rewrite E in H1, H2. cbn [skipn Nat.mul Nat.add] in H1, H2.
        split; intros H; [rewrite (proj2 H2 H)|rewrite (proj2 H1 H); reflexivity].
        pose proof (word_number N _ f 0 F ltac:(cbn [length]; lia)) as X. pose proof (word_number N _ f 1 F ltac:(cbn [length]; lia)) as Y. rewrite E in X, Y. cbn [nth] in X, Y.
        pose proof (number_range (fun i => Nat.ltb (0 * 32 + i) N && f (0 * 32 + i)%nat)%bool 32) as Rx. pose proof (number_range (fun i => Nat.ltb (1 * 32 + i) N && f (1 * 32 + i)%nat)%bool 32) as Ry.
        rewrite <- X in Rx. rewrite <- Y in Ry. change (2 ^ Z.of_nat 32) with 4294967296 in Rx, Ry.
        assert (W32 : wid t = 32) by lia. rewrite W32. unfold shl. change (wid ull) with 64. cbn [Z.leb Z.ltb andb Z.compare Pos.compare Pos.compare_cont CompOpp sgn ull].
        assert (P64 : 2 ^ wid ull = 18446744073709551616) by reflexivity.
        assert (C : forall z, 0 <= z < 18446744073709551616 -> conv ull z = z) by (intros z Z; apply conv_id; unfold is_val; cbn [sgn ull]; rewrite P64; exact Z).
        change (2 ^ 32) with 4294967296. cbn [bind]. rewrite C by lia. unfold arith. cbn [sgn ull bind]. rewrite C by lia. do 2 f_equal.
        transitivity (number_of (fun i => Nat.ltb i N && f i)%bool (32 + 32)).
        * rewrite number_app. rewrite X at 1. rewrite Y. change (2 ^ Z.of_nat 32) with 4294967296. cbn [Nat.mul Nat.add]. rewrite Z.mul_comm. reflexivity.
        * apply number_eq. intros i. destruct (Nat.ltb_spec i (32 + 32)) as [D|D]; cbn [andb]; [reflexivity|]. destruct (Nat.ltb_spec i N) as [D'|D']; [symmetry; apply H; lia|reflexivity].
      + replace (wid t <? 64) with false by (symmetry; apply Z.ltb_ge; lia). rewrite E in Lo, Hi. cbn [ulong_words] in Lo, Hi. split; intros H.
        * specialize (Lo H). destruct (existsb _ (y :: l)); [discriminate|]. congruence.
        * specialize (Hi H). destruct (existsb _ (y :: l)); [reflexivity|discriminate].
  Qed.

  (** ** Construction *)
  Lemma nwords_ok N : (N <= nwords t N * W < N + W)%nat.
  Proof.
    destruct (wpos t) as [_ Wp]. destruct (split_shift t N) as [E M]. unfold nwords, wbits. destruct (Nat.eqb_spec (N mod W) 0) as [Z|Z].
    - set (q := (N / W)%nat) in *. clearbody q. rewrite Z in *. nia.
    - set (q := (N / W)%nat) in *. set (r := (N mod W)%nat) in *. clearbody q r. nia.
  Qed.
  Lemma zero_ok N : bits_are N (bs_zero t N) (fun _ => false).
  Proof.
    unfold bs_zero. split; [rewrite repeat_length; apply nwords_ok|]. split; [apply Forall_forall; intros x I; apply repeat_spec in I as ->; apply zero_word|].
    intros i I. rewrite andb_false_r. unfold BsSpec.bit_at. rewrite nth_repeat. apply Z.bits_0.
  Qed.
  Lemma ull_val x : is_val ull x <-> 0 <= x < 2 ^ 64.
  Proof. reflexivity. Qed.
  Lemma san_ull N val : is_val ull val -> exists v, (if Nat.ltb N 64 then m <- shl true ull (cpl ull 0) (Z.of_nat N) ;; Ok (Z.land val (cpl ull m)) else Ok val) = Ok v /\
    is_val ull v /\ forall i, Z.testbit v (Z.of_nat i) = (Nat.ltb i N && Z.testbit val (Z.of_nat i))%bool.
  Proof.
    intros V. destruct (Nat.ltb_spec N 64) as [L|L].
    - destruct (shl_word ull eq_refl (cpl ull 0) N ltac:(change (Z.to_nat (wid ull)) with 64%nat; lia)) as (m & -> & Vm & Bm). cbn [bind]. eexists. split; [reflexivity|].
      destruct (cpl_word ull m) as [Vc Bc]. split; [apply (and_word ull eq_refl); assumption|]. intros i. rewrite Z.land_spec.
      destruct (Nat.lt_ge_cases i 64) as [D|D].
      + rewrite Bc, Bm by exact D. rewrite (proj2 (cpl_word ull 0)) by (change (Z.to_nat (wid ull)) with 64%nat; lia). rewrite Z.bits_0. cbn [negb]. rewrite andb_true_r, andb_comm. f_equal.
        apply eq_iff_eq_true. rewrite negb_true_iff, Nat.leb_gt, Nat.ltb_lt. lia.
      + rewrite (val_high ull eq_refl val i V) by exact D. rewrite andb_false_r. reflexivity.
    - exists val. split; [reflexivity|]. split; [exact V|]. intros i. destruct (Nat.ltb_spec i N) as [D|D]; cbn [andb]; [reflexivity|].
      apply (val_high ull eq_refl val i V). change (Z.to_nat (wid ull)) with 64%nat. lia.
  Qed.
  Lemma conv_word v r : (r < W)%nat -> Z.testbit (conv t v) (Z.of_nat r) = Z.testbit v (Z.of_nat r).
  Proof. intros R. apply conv_bits. destruct (wpos t). lia. Qed.
  Lemma of_ull_lemma N val : wid t = 32 \/ wid t = 64 /\ (N <= 64)%nat -> is_val ull val ->
    exists w, bs_of_ull t N val = Ok w /\ bits_are N w (fun i => Z.testbit val (Z.of_nat i)).
  Proof.
    intros WW V. unfold bs_of_ull. destruct (san_ull N val V) as (v & -> & Vv & B). cbn [bind]. pose proof (nwords_ok N) as NW.
    assert (Hv : forall i, (64 <= i)%nat -> Z.testbit v (Z.of_nat i) = false) by (intros i I; apply (val_high ull eq_refl v i Vv); exact I).
    destruct (nwords t N) as [|[|n]].
    - assert (N = 0)%nat as -> by lia. exists []. split; [reflexivity|]. split; [exact NW|]. split; [constructor|]. cbn [length]. lia.
    - eexists. split; [reflexivity|]. apply bits_qr. split; [split; [exact NW|constructor; [apply conv_val|constructor]]|]. cbn [length]. intros q r Q R. assert (q = 0)%nat as -> by lia.
      cbn [nth Nat.mul Nat.add]. rewrite conv_word by exact R. apply B.
    - assert (Wt : wid t = 32) by lia. assert (We : W = 32%nat) by lia.
      destruct (shr_word ull eq_refl v 32 Vv ltac:(change (Z.to_nat (wid ull)) with 64%nat; lia)) as (h & E & Vh & Bh). rewrite Wt. change 32 with (Z.of_nat 32). rewrite E. cbn [bind].
      eexists. split; [reflexivity|]. apply bits_qr. split; [split; [cbn [length]; rewrite repeat_length; exact NW|]|].
      + constructor; [apply conv_val|]. constructor; [apply conv_val|]. apply Forall_forall. intros x I. apply repeat_spec in I as ->. apply zero_word.
      + intros q r Q R. destruct q as [|[|q]]; cbn [nth].
        * rewrite conv_word by exact R. cbn [Nat.mul Nat.add]. apply B.
        * rewrite conv_word by exact R. rewrite Bh. rewrite <- B. do 2 f_equal. lia.
        * rewrite nth_repeat, Z.bits_0, <- B. symmetry. apply Hv. lia.
  Qed.
  Lemma of_ull_ub N val : wid t = 64 -> (64 < N)%nat -> bs_of_ull t N val = UB.
  Proof.
    intros WW L. unfold bs_of_ull. replace (Nat.ltb N 64) with false by (symmetry; apply Nat.ltb_ge; lia). cbn [bind]. pose proof (nwords_ok N) as NW.
    destruct (nwords t N) as [|[|n]]; [lia|lia|]. rewrite WW. reflexivity.
  Qed.

  (** ** Strings *)
  Section String.
    Variables (N : nat) (s : list Z) (pos nb : nat) (zero one : Z).
    Hypothesis In : (pos + nb <= length s)%nat.
    Hypothesis Nb : (nb <= N)%nat.
    Lemma copy_ok : forall i w f, (i <= nb)%nat -> bits_are N w f -> (forall j, (j < i)%nat -> f j = false) ->
      ((forall j, (pos + nb - i <= j < pos + nb)%nat -> nth j s 0 = zero \/ nth j s 0 = one) ->
        exists r, copy_loop t s pos nb zero one i w = Ok (Val r) /\ bits_are N r (fun j => if Nat.ltb j i then negb (nth (pos + nb - 1 - j) s 0 =? zero) else f j)) /\
      ((exists j, (pos + nb - i <= j < pos + nb)%nat /\ nth j s 0 <> zero /\ nth j s 0 <> one) -> copy_loop t s pos nb zero one i w = Ok Invalid_argument).
    Proof.
      induction i as [|i IH]; intros w f I F Z0.
      - split; [|intros (j & J & _); lia]. intros _. exists w. split; [reflexivity|]. eapply bits_ext; [exact F|]. reflexivity.
      - cbn [copy_loop]. rewrite rd_nth_d by lia. cbn [bind]. set (c := nth (pos + nb - S i) s 0).
        assert (Ec : forall j, (pos + nb - S i <= j < pos + nb)%nat -> j = (pos + nb - S i)%nat \/ (pos + nb - i <= j < pos + nb)%nat) by lia.
        destruct (Z.eqb_spec c zero) as [Cz|Cz].
        + destruct (IH w f ltac:(lia) F ltac:(intros; apply Z0; lia)) as [Ok1 Bad1]. split.
          * intros H. destruct Ok1 as (r & E & B); [intros j J; apply H; lia|]. exists r. split; [exact E|]. eapply bits_ext; [exact B|]. intros j _. cbn beta.
            destruct (Nat.eq_dec j i) as [->|Ne].
            { rewrite Nat.ltb_irrefl. replace (Nat.ltb i (S i)) with true by (symmetry; apply Nat.ltb_lt; lia). replace (pos + nb - 1 - i)%nat with (pos + nb - S i)%nat by lia.
              fold c. rewrite Cz, Z.eqb_refl. apply Z0. lia. }
            replace (Nat.ltb j (S i)) with (Nat.ltb j i); [reflexivity|]. apply eq_iff_eq_true. rewrite !Nat.ltb_lt. lia.
          * intros (j & J & J1 & J2). apply Bad1. exists j. split; [|auto]. destruct (Ec j J) as [->|D]; [fold c in J1; contradiction|exact D].
        + destruct (Z.eqb_spec c one) as [Co|Co].
          * destruct (unchecked_set_ok t U N w f i true F ltac:(lia)) as (w' & -> & F'). cbn [bind].
            destruct (IH w' _ ltac:(lia) F') as [Ok1 Bad1].
            { intros j J. unfold bit_set. replace (Nat.eqb j i) with false by (symmetry; apply Nat.eqb_neq; lia). apply Z0. lia. }
            split.
            { intros H. destruct Ok1 as (r & E & B); [intros j J; apply H; lia|]. exists r. split; [exact E|]. eapply bits_ext; [exact B|]. intros j _. cbn beta. unfold bit_set.
              destruct (Nat.eqb_spec j i) as [->|Ne].
              - rewrite Nat.ltb_irrefl. replace (Nat.ltb i (S i)) with true by (symmetry; apply Nat.ltb_lt; lia). replace (pos + nb - 1 - i)%nat with (pos + nb - S i)%nat by lia.
                fold c. symmetry. apply negb_true_iff, Z.eqb_neq. exact Cz.
              - replace (Nat.ltb j (S i)) with (Nat.ltb j i); [reflexivity|]. apply eq_iff_eq_true. rewrite !Nat.ltb_lt. lia. }
            intros (j & J & J1 & J2). apply Bad1. exists j. split; [|auto]. destruct (Ec j J) as [->|D]; [fold c in J2; contradiction|exact D].
          * split; [|reflexivity]. intros H. exfalso. destruct (H (pos + nb - S i)%nat ltac:(lia)) as [E|E]; fold c in E; contradiction.
    Qed.
  End String.
  Lemma of_string_lemma N s pos n zero one : let M := Nat.min N (Nat.min n (length s - pos)) in
    ((length s < pos)%nat -> bs_of_string t N s pos n zero one = Ok Out_of_range) /\
    ((pos <= length s)%nat -> (forall j, (j < M)%nat -> nth (pos + j) s 0 = zero \/ nth (pos + j) s 0 = one) ->
      exists w, bs_of_string t N s pos n zero one = Ok (Val w) /\ bits_are N w (fun i => Nat.ltb i M && negb (nth (pos + M - 1 - i) s 0 =? zero))%bool) /\
    ((pos <= length s)%nat -> (exists j, (j < M)%nat /\ nth (pos + j) s 0 <> zero /\ nth (pos + j) s 0 <> one) ->
      bs_of_string t N s pos n zero one = Ok Invalid_argument).
  Proof.
    intros M. unfold bs_of_string. fold M. split; [|split].
    - intros H. replace (Nat.ltb (length s) pos) with true by (symmetry; now apply Nat.ltb_lt). reflexivity.
    - intros H G. replace (Nat.ltb (length s) pos) with false by (symmetry; now apply Nat.ltb_ge).
      destruct (copy_ok N s pos M zero one ltac:(lia) ltac:(lia) M (bs_zero t N) _ ltac:(lia) (zero_ok N) ltac:(reflexivity)) as [Ok1 _].
      destruct Ok1 as (r & E & B).
      { intros j J. replace j with (pos + (j - pos))%nat by lia. apply G. lia. }
      exists r. split; [exact E|]. eapply bits_ext; [exact B|]. intros i _. cbn beta. destruct (Nat.ltb i M); reflexivity.
    - intros H (j & J & G). replace (Nat.ltb (length s) pos) with false by (symmetry; now apply Nat.ltb_ge).
      destruct (copy_ok N s pos M zero one ltac:(lia) ltac:(lia) M (bs_zero t N) _ ltac:(lia) (zero_ok N) ltac:(reflexivity)) as [_ Bad1].
      apply Bad1. exists (pos + j)%nat. split; [lia|exact G].
  Qed.
  Lemma to_string_loop N w f (zero one : Z) : bits_are N w f -> forall i s, (i <= N)%nat -> length s = N -> exists l,
    down i 1 (fun i s => b <- unchecked_test t w (i - 1) ;; if b : bool then wr s (N - i) one else Ok s) s = Ok l /\ length l = N /\
    forall j, (j < N)%nat -> nth j l 0 = if (Nat.leb (N - i) j && f (N - 1 - j)%nat)%bool then one else nth j s 0.
  Proof.
    intros F. induction i as [|i IH]; intros s I L.
    - exists s. split; [reflexivity|]. split; [exact L|]. intros j J. replace (Nat.leb (N - 0) j) with false by (symmetry; apply Nat.leb_gt; lia). reflexivity.
    - cbn [down]. replace (Nat.ltb (S i) 1) with false by (symmetry; apply Nat.ltb_ge; lia). replace (S i - 1)%nat with i by lia.
      rewrite (unchecked_test_ok t U N w f i F) by lia. cbn [bind]. destruct (f i) eqn:Fi.
      + rewrite wr_ok by lia. cbn [bind]. destruct (IH (upd s (N - S i) one) ltac:(lia) ltac:(now rewrite upd_len)) as (l & E & Ll & H). exists l. split; [exact E|]. split; [exact Ll|].
        intros j J. rewrite H by exact J. destruct (Nat.eq_dec j (N - S i)) as [->|Ne].
        * replace (Nat.leb (N - i) (N - S i)) with false by (symmetry; apply Nat.leb_gt; lia). rewrite Nat.leb_refl. cbn [andb]. replace (N - 1 - (N - S i))%nat with i by lia. rewrite Fi.
          apply upd_nth_eq'. lia.
        * rewrite upd_nth_neq' by lia. replace (Nat.leb (N - S i) j) with (Nat.leb (N - i) j); [reflexivity|]. apply eq_iff_eq_true. rewrite !Nat.leb_le. lia.
      + cbn [bind]. destruct (IH s ltac:(lia) L) as (l & E & Ll & H). exists l. split; [exact E|]. split; [exact Ll|]. intros j J. rewrite H by exact J.
        destruct (Nat.eq_dec j (N - S i)) as [->|Ne].
        * replace (Nat.leb (N - i) (N - S i)) with false by (symmetry; apply Nat.leb_gt; lia). rewrite Nat.leb_refl. cbn [andb]. replace (N - 1 - (N - S i))%nat with i by lia. rewrite Fi. reflexivity.
        * replace (Nat.leb (N - S i) j) with (Nat.leb (N - i) j); [reflexivity|]. apply eq_iff_eq_true. rewrite !Nat.leb_le. lia.
  Qed.
  Lemma to_string_lemma N w f zero one : bits_are N w f -> exists l, bs_to_string t N w zero one = Ok l /\ length l = N /\
    forall j, (j < N)%nat -> nth j l 0 = if f (N - 1 - j)%nat then one else zero.
  Proof.
    intros F. destruct (to_string_loop N w f zero one F N (repeat zero N) ltac:(lia) ltac:(apply repeat_length)) as (l & E & L & H). exists l. split; [exact E|]. split; [exact L|].
    intros j J. rewrite H by exact J. rewrite (nth_indep (repeat zero N) 0 zero) by (rewrite repeat_length; exact J). replace (Nat.leb (N - N) j) with true by (symmetry; apply Nat.leb_le; lia). cbn [andb]. rewrite nth_repeat. reflexivity.
  Qed.
  Lemma round_trip_lemma N w f zero one n : zero <> one -> (N <= n)%nat -> bits_are N w f ->
    exists s, bs_to_string t N w zero one = Ok s /\ bs_of_string t N s 0 n zero one = Ok (Val w).
  Proof.
    intros Ne Nn F. destruct (to_string_lemma N w f zero one F) as (s & E & L & H). exists s. split; [exact E|].
    destruct (of_string_lemma N s 0 n zero one) as (_ & Good & _). rewrite L, Nat.sub_0_r in Good. replace (Nat.min N (Nat.min n N)) with N in Good by lia.
    destruct Good as (w' & -> & B); [lia| |].
    - intros j J. cbn [Nat.add]. rewrite H by exact J. destruct (f (N - 1 - j)%nat); auto.
    - do 2 f_equal. apply (bits_inj t N w' w f); [|exact F]. eapply bits_ext; [exact B|]. intros i I. cbn beta. replace (Nat.ltb i N) with true by (symmetry; apply Nat.ltb_lt; exact I).
      cbn [andb Nat.add]. rewrite H by lia. replace (N - 1 - (N - 1 - i))%nat with i by lia. destruct (f i); [apply negb_true_iff, Z.eqb_neq; congruence|rewrite Z.eqb_refl; reflexivity].
  Qed.
End Bs.
