(** Shifts of bitsets. *)
From Coq Require Import List Arith ZArith Bool Lia.
From Verif Require Import Base BitModel BitSpec BitProof ShaProof MdProof MtModel MtProof BsModel BsSpec BsProof.
Import ListNotations.
Open Scope Z_scope.

Section Bs.
  Variable t : ity.
  Hypothesis U : sgn t = false.
  Notation W := (Z.to_nat (wid t)).
  Notation bit_at := (bit_at t).
  Notation bits_are := (bits_are t).
  Notation raw := (raw t).

  Definition got (r : res Z) : Z := match r with Ok y => y | _ => 0 end.
  Definition shlv a s := got (shl true t a (Z.of_nat s)).
  Definition shrv a s := got (shr t a (Z.of_nat s)).
  Lemma shl_eq a s : (s < W)%nat -> shl true t a (Z.of_nat s) = Ok (shlv a s).
  Proof. intros S. unfold shlv. destruct (shl_word t U a s S) as (y & -> & _). reflexivity. Qed.
  Lemma shr_eq a s : is_val t a -> (s < W)%nat -> shr t a (Z.of_nat s) = Ok (shrv a s).
  Proof. intros A S. unfold shrv. destruct (shr_word t U a s A S) as (y & -> & _). reflexivity. Qed.
  Lemma shlv_val a s : (s < W)%nat -> is_val t (shlv a s).
  Proof. intros S. unfold shlv. destruct (shl_word t U a s S) as (y & -> & V & _). exact V. Qed.
  Lemma shrv_val a s : is_val t a -> (s < W)%nat -> is_val t (shrv a s).
  Proof. intros A S. unfold shrv. destruct (shr_word t U a s A S) as (y & -> & V & _). exact V. Qed.
  Lemma shlv_bit a s r : (s < W)%nat -> (r < W)%nat -> Z.testbit (shlv a s) (Z.of_nat r) = (Nat.leb s r && Z.testbit a (Z.of_nat (r - s)))%bool.
  Proof. intros S. unfold shlv. destruct (shl_word t U a s S) as (y & -> & _ & B). apply B. Qed.
  Lemma shrv_bit a s r : is_val t a -> (s < W)%nat -> Z.testbit (shrv a s) (Z.of_nat r) = Z.testbit a (Z.of_nat (r + s)).
  Proof. intros A S. unfold shrv. destruct (shr_word t U a s A S) as (y & -> & _ & B). apply B. Qed.

  Lemma two_words (w : list Z) : (1 < length w)%nat -> forall A (a b : A) (f : Z -> A),
    match w with [] => a | [x] => f x | _ :: _ :: _ => b end = b.
  Proof. intros L. destruct w as [|x [|y w]]; [cbn [length] in L; lia|cbn [length] in L; lia|reflexivity]. Qed.

  (** ** To the left *)
  Definition leftg (w : list Z) (ws off q : nat) : Z :=
   
    if Nat.eqb off 0 then if Nat.leb ws q then nth (q - ws) w 0 else 0
    else if Nat.ltb ws q then Z.lor (shlv (nth (q - ws) w 0) off) (shrv (nth (q - ws - 1) w 0) (W - off))
    else if Nat.eqb q ws then shlv (nth 0 w 0) off else 0.
  Lemma zero_fill (l : list Z) ws n : length l = n -> (ws <= n)%nat -> exists l', for_ ws 0 (fun i w => wr w i 0) l = Ok l' /\ length l' = n /\
    forall j, (j < n)%nat -> nth j l' 0 = if Nat.ltb j ws then 0 else nth j l 0.
  Proof.
    intros L H. destruct (for_upd ws (fun _ => 0) 0 (fun i w => wr w i 0) l n) as (l' & E & L' & N); [exact L|lia| |].
    { intros i x I Lx _. apply wr_ok. lia. }
    exists l'. split; [exact E|]. split; [exact L'|]. intros j J. rewrite (N j J). reflexivity.
  Qed.
  Lemma split_shift shift : (shift = shift / W * W + shift mod W /\ shift mod W < W)%nat.
  Proof.
    destruct (wpos t) as [_ Wp]. pose proof (Nat.div_mod shift W ltac:(lia)). pose proof (Nat.mod_upper_bound shift W ltac:(lia)). lia.
  Qed.
  Lemma left_two N w shift : raw N w -> (1 < length w)%nat -> (shift < length w * W)%nat -> shift <> 0%nat -> forall cst,
    left_words t cst w shift = Ok (map (leftg w (shift / W) (shift mod W)) (seq 0 (length w))).
  Proof.
    intros R L2 S S0 cst. destruct (wpos t) as [_ Wp]. destruct (split_shift shift) as [Sh Mo].
    unfold left_words. rewrite (two_words w) by exact L2. unfold wbits. set (ws := (shift / W)%nat) in *. set (off := (shift mod W)%nat) in *. clearbody ws off.
    assert (Ws : (ws < length w)%nat) by nia.
    assert (V : forall q, is_val t (nth q w 0)) by (intros q; eapply nth_val, R; exact U).
    replace (Nat.eqb shift 0) with false by (symmetry; apply Nat.eqb_neq; exact S0).
    destruct (Nat.eqb_spec (off) 0) as [O|O].
    - destruct cst.
      + apply tab_ok. intros j J. unfold leftg. rewrite O. cbn [Nat.eqb]. destruct (Nat.leb_spec (ws) j); [|reflexivity]. apply rd_nth_d. lia.
      + destruct (down_upd (fun i => nth (i - ws) w 0) (length w - 1) (ws) (fun i w => a <- rd w (i - ws) ;; wr w i a) w (length w)) as (l & E & Ll & N1);
          [reflexivity|nia|lia| |].
        { intros i l I Li H. rewrite rd_nth_d by lia. cbn [bind]. rewrite wr_ok by lia. rewrite H by lia. reflexivity. }
        rewrite E. cbn [bind]. destruct (zero_fill l (ws) (length w) Ll ltac:(lia)) as (l' & -> & Ll' & N2). f_equal.
        apply nth_map_seq; [exact Ll'|]. intros j J. rewrite (N2 j J), (N1 j J). unfold leftg. rewrite O. cbn [Nat.eqb].
        replace (Nat.leb j (length w - 1)) with true by (symmetry; apply Nat.leb_le; lia). rewrite andb_true_r.
        destruct (Nat.ltb_spec j (ws)); destruct (Nat.leb_spec (ws) j); try lia; reflexivity.
    - destruct cst.
      + apply tab_ok. intros j J. unfold leftg. replace (Nat.eqb (off) 0) with false by (symmetry; apply Nat.eqb_neq; exact O).
        destruct (Nat.ltb_spec (ws) j).
        * rewrite !rd_nth_d by lia. cbn [bind]. rewrite shl_eq by lia. cbn [bind]. rewrite shr_eq by (try apply V; lia). reflexivity.
        * destruct (Nat.eqb_spec j (ws)); [|reflexivity]. rewrite rd_nth_d by lia. cbn [bind]. apply shl_eq. lia.
      + destruct (down_upd (fun i => Z.lor (shlv (nth (i - ws) w 0) (off)) (shrv (nth (i - ws - 1) w 0) (W - off))) (length w - 1) (Datatypes.S ws)
          (fun i w => a <- (a <- rd w (i - ws) ;; b <- rd w (i - ws - 1) ;; a <- shl true t a (Z.of_nat (off)) ;; b <- shr t b (Z.of_nat (W - off)) ;; Ok (Z.lor a b)) ;; wr w i a) w (length w)) as (l & E & Ll & N1);
          [reflexivity|lia|lia| |].
        { intros i l I Li H. rewrite !rd_nth_d by lia. cbn [bind]. rewrite !H by lia. rewrite shl_eq by lia. cbn [bind]. rewrite shr_eq by (try apply V; lia). cbn [bind].
          apply wr_ok. lia. }
        rewrite E. cbn [bind]. rewrite rd_nth_d by lia. cbn [bind]. rewrite (N1 0%nat) by lia. cbn [Nat.leb andb].
        rewrite shl_eq by lia. cbn [bind]. rewrite wr_ok by lia. cbn [bind].
        destruct (zero_fill (upd l (ws) (shlv (nth 0 w 0) (off))) (ws) (length w) ltac:(now rewrite upd_len) ltac:(lia)) as (l' & -> & Ll' & N2). f_equal.
        apply nth_map_seq; [exact Ll'|]. intros j J. rewrite (N2 j J). unfold leftg. replace (Nat.eqb (off) 0) with false by (symmetry; apply Nat.eqb_neq; exact O).
        destruct (Nat.ltb_spec j (ws)).
        * replace (Nat.ltb (ws) j) with false by (symmetry; apply Nat.ltb_ge; lia). replace (Nat.eqb j (ws)) with false by (symmetry; apply Nat.eqb_neq; lia). reflexivity.
        * destruct (Nat.eqb_spec j (ws)) as [->|Ne].
          { rewrite upd_nth_eq' by lia. rewrite Nat.ltb_irrefl. reflexivity. }
          rewrite upd_nth_neq' by lia. rewrite (N1 j J). replace (Nat.leb (Datatypes.S ws) j && Nat.leb j (length w - 1)) with true by (symmetry; apply andb_true_iff; rewrite !Nat.leb_le; lia).
          replace (Nat.ltb (ws) j) with true by (symmetry; apply Nat.ltb_lt; lia). reflexivity.
  Qed.
  Lemma leftg_ok N w shift q r : raw N w -> (q < length w)%nat -> (r < W)%nat ->
    is_val t (leftg w (shift / W) (shift mod W) q) /\ Z.testbit (leftg w (shift / W) (shift mod W) q) (Z.of_nat r) = (Nat.leb shift (q * W + r) && bit_at w (q * W + r - shift))%bool.
  Proof.
    intros R Q Hr. destruct (wpos t) as [_ Wp]. destruct (split_shift shift) as [Sh Mo]. unfold leftg.
    set (ws := (shift / W)%nat) in *. set (off := (shift mod W)%nat) in *. clearbody ws off.
    assert (V : forall q, is_val t (nth q w 0)) by (intros p; eapply nth_val, R; exact U).
    destruct (Nat.eqb_spec off 0) as [O|O].
    - destruct (Nat.leb_spec ws q) as [L|L].
      + split; [apply V|]. replace (Nat.leb shift (q * W + r)) with true by (symmetry; apply Nat.leb_le; nia). cbn [andb].
        replace (q * W + r - shift)%nat with ((q - ws) * W + r)%nat by nia. symmetry. apply bit_qr, Hr.
      + split; [apply zero_word|]. rewrite Z.bits_0. replace (Nat.leb shift (q * W + r)) with false by (symmetry; apply Nat.leb_gt; nia). reflexivity.
    - destruct (Nat.ltb_spec ws q) as [L|L].
      + split; [apply or_word; [exact U|apply shlv_val; lia|apply shrv_val; [apply V|lia]]|].
        rewrite Z.lor_spec, shlv_bit, shrv_bit by (try apply V; lia).
        replace (Nat.leb shift (q * W + r)) with true by (symmetry; apply Nat.leb_le; nia). cbn [andb].
        destruct (Nat.leb_spec off r) as [A|A]; cbn [andb orb].
        * rewrite (val_high t U _ (r + (W - off))) by (try apply V; lia). rewrite orb_false_r.
          replace (q * W + r - shift)%nat with ((q - ws) * W + (r - off))%nat by nia. symmetry. apply bit_qr. lia.
        * replace (q * W + r - shift)%nat with ((q - ws - 1) * W + (r + (W - off)))%nat by nia. symmetry. apply bit_qr. lia.
      + destruct (Nat.eqb_spec q ws) as [->|Ne].
        * split; [apply shlv_val; lia|]. rewrite shlv_bit by lia. destruct (Nat.leb_spec off r) as [A|A]; cbn [andb].
          { replace (Nat.leb shift (ws * W + r)) with true by (symmetry; apply Nat.leb_le; lia). cbn [andb].
            replace (ws * W + r - shift)%nat with (0 * W + (r - off))%nat by lia. symmetry. apply bit_qr. lia. }
          replace (Nat.leb shift (ws * W + r)) with false by (symmetry; apply Nat.leb_gt; lia). reflexivity.
        * split; [apply zero_word|]. rewrite Z.bits_0. replace (Nat.leb shift (q * W + r)) with false by (symmetry; apply Nat.leb_gt; nia). reflexivity.
  Qed.
  Lemma left_ok N w shift cst : raw N w -> (shift < N)%nat ->
    exists l, left_words t cst w shift = Ok l /\ raw N l /\ length l = length w /\
      forall i, (i < length w * W)%nat -> bit_at l i = (Nat.leb shift i && bit_at w (i - shift))%bool.
  Proof.
    intros R S. pose proof R as [A F]. destruct (wpos t) as [_ Wp].
    destruct (Nat.eq_dec shift 0) as [Z0|Z0].
    - subst shift. destruct w as [|x [|y w0]].
      + cbn [length] in A. lia.
      + cbn [left_words]. rewrite shl_eq by lia. cbn [bind]. eexists. split; [reflexivity|].
        assert (E : shlv x 0 = x).
        { apply (BsProof.val_ext t); [apply shlv_val; lia|inversion F; assumption|]. intros r Hr. rewrite shlv_bit by lia. cbn [Nat.leb andb]. rewrite Nat.sub_0_r. reflexivity. }
        rewrite E. split; [exact R|]. split; [reflexivity|]. intros i _. cbn [Nat.leb andb]. rewrite Nat.sub_0_r. reflexivity.
      + exists (x :: y :: w0). split; [reflexivity|]. split; [exact R|]. split; [reflexivity|]. intros i _. cbn [Nat.leb andb]. rewrite Nat.sub_0_r. reflexivity.
    - destruct (Nat.lt_ge_cases 1 (length w)) as [L|L].
      + rewrite (left_two N) by (try assumption; lia). eexists. split; [reflexivity|]. split; [|split; [now rewrite map_length, seq_length|]].
        * apply map_raw; [exact R|]. intros q Q. apply (leftg_ok N w shift q 0 R Q). lia.
        * intros i I. destruct (in_qr t i _ I) as (q & r & Q & Hr & ->). rewrite (bit_qr t _ q r Hr), map_seq_nth by exact Q. apply (leftg_ok N w shift q r R Q Hr).
      + destruct w as [|x [|y w0]]; [cbn [length] in A; lia| |cbn [length] in L; lia]. cbn [length] in A. cbn [left_words]. rewrite shl_eq by lia. cbn [bind].
        eexists. split; [reflexivity|]. split; [split; [cbn [length]; lia|constructor; [apply shlv_val; lia|constructor]]|]. split; [reflexivity|].
        intros i I. cbn [length] in I. replace i with (0 * W + i)%nat at 1 by lia. rewrite bit_qr by lia. cbn [nth]. rewrite shlv_bit by lia. f_equal.
        replace (i - shift)%nat with (0 * W + (i - shift))%nat at 2 by lia. rewrite bit_qr by lia. reflexivity.
  Qed.
  Lemma left_lemma N w f p cst : bits_are N w f ->
    exists r, bs_left t N cst w p = Ok r /\ bits_are N r (fun i => Nat.leb p i && f (i - p)%nat)%bool.
  Proof.
    intros F. pose proof (bits_raw _ _ _ _ F) as R. unfold bs_left. destruct (Nat.ltb_spec p N) as [L|L].
    - destruct (left_ok N w p cst R L) as (l & -> & Rl & Ll & B). cbn [bind]. destruct (sanitize_ok t U N l Rl) as (r & -> & H). exists r. split; [reflexivity|].
      eapply bits_ext; [exact H|]. intros i I. destruct R as [A _]. rewrite B by lia. destruct (Nat.leb_spec p i) as [Q|Q]; cbn [andb]; [|reflexivity].
      destruct F as (_ & _ & F). rewrite F by lia. replace (Nat.ltb (i - p) N) with true by (symmetry; apply Nat.ltb_lt; lia). reflexivity.
    - destruct (fill_lemma t cst N w R) as (r & -> & H). exists r. split; [reflexivity|]. eapply bits_ext; [exact H|].
      intros i I. replace (Nat.leb p i) with false by (symmetry; apply Nat.leb_gt; lia). reflexivity.
  Qed.

  (** ** To the right *)
  Definition rightg (w : list Z) (ws off q : nat) : Z :=
    let limit := (length w - ws - 1)%nat in
    if Nat.eqb off 0 then if Nat.leb q limit then nth (q + ws) w 0 else 0
    else if Nat.ltb q limit then Z.lor (shrv (nth (q + ws) w 0) off) (shlv (nth (q + ws + 1) w 0) (W - off))
    else if Nat.eqb q limit then shrv (nth (length w - 1) w 0) off else 0.
  Lemma zero_fill_hi (l : list Z) lo n : length l = n -> (lo <= n)%nat -> exists l', for_ (n - lo) lo (fun i w => wr w i 0) l = Ok l' /\ length l' = n /\
    forall j, (j < n)%nat -> nth j l' 0 = if Nat.ltb j lo then nth j l 0 else 0.
  Proof.
    intros L H. destruct (for_upd (n - lo) (fun _ => 0) lo (fun i w => wr w i 0) l n) as (l' & E & L' & N); [exact L|lia| |].
    { intros i x I Lx _. apply wr_ok. lia. }
    exists l'. split; [exact E|]. split; [exact L'|]. intros j J. rewrite (N j J).
    replace (Nat.ltb j (lo + (n - lo))) with true by (symmetry; apply Nat.ltb_lt; lia). rewrite andb_true_r.
    destruct (Nat.leb_spec lo j); destruct (Nat.ltb_spec j lo); try lia; reflexivity.
  Qed.
  Lemma right_two N w shift : raw N w -> (1 < length w)%nat -> (shift < length w * W)%nat -> shift <> 0%nat -> forall cst,
    right_words t cst w shift = Ok (map (rightg w (shift / W) (shift mod W)) (seq 0 (length w))).
  Proof.
    intros R L2 S S0 cst. destruct (wpos t) as [_ Wp]. destruct (split_shift shift) as [Sh Mo].
    unfold right_words. rewrite (two_words w) by exact L2. unfold wbits. set (ws := (shift / W)%nat) in *. set (off := (shift mod W)%nat) in *. clearbody ws off.
    assert (Ws : (ws < length w)%nat) by nia.
    assert (V : forall q, is_val t (nth q w 0)) by (intros q; eapply nth_val, R; exact U).
    replace (Nat.eqb shift 0) with false by (symmetry; apply Nat.eqb_neq; exact S0).
    destruct (Nat.eqb_spec (off) 0) as [O|O].
    - destruct cst.
      + apply tab_ok. intros j J. unfold rightg. rewrite O. cbn [Nat.eqb]. destruct (Nat.leb_spec j (length w - ws - 1)); [|reflexivity]. apply rd_nth_d. lia.
      + destruct (for_upd (Datatypes.S (length w - ws - 1)) (fun i => nth (i + ws) w 0) 0 (fun i w => a <- rd w (i + ws) ;; wr w i a) w (length w)) as (l & E & Ll & N1);
          [reflexivity|lia| |].
        { intros i l I Li H. rewrite rd_nth_d by lia. cbn [bind]. rewrite wr_ok by lia. rewrite H by lia. reflexivity. }
        rewrite E. cbn [bind]. destruct (zero_fill_hi l (length w - ws - 1 + 1) (length w) Ll ltac:(lia)) as (l' & -> & Ll' & N2). f_equal.
        apply nth_map_seq; [exact Ll'|]. intros j J. rewrite (N2 j J), (N1 j J). unfold rightg. rewrite O. cbn [Nat.eqb].
        replace (Nat.leb 0 j && Nat.ltb j (0 + Datatypes.S (length w - ws - 1))) with (Nat.leb j (length w - ws - 1)) by reflexivity.
        destruct (Nat.ltb_spec j (length w - ws - 1 + 1)); destruct (Nat.leb_spec j (length w - ws - 1)); try lia; reflexivity.
    - destruct cst.
      + apply tab_ok. intros j J. unfold rightg. replace (Nat.eqb (off) 0) with false by (symmetry; apply Nat.eqb_neq; exact O).
        destruct (Nat.ltb_spec j (length w - ws - 1)).
        * rewrite !rd_nth_d by lia. cbn [bind]. rewrite shr_eq by (try apply V; lia). cbn [bind]. rewrite shl_eq by lia. reflexivity.
        * destruct (Nat.eqb_spec j (length w - ws - 1)); [|reflexivity]. rewrite rd_nth_d by lia. cbn [bind]. apply shr_eq; [apply V|lia].
      + destruct (for_upd (length w - ws - 1) (fun i => Z.lor (shrv (nth (i + ws) w 0) (off)) (shlv (nth (i + ws + 1) w 0) (W - off))) 0
          (fun i w => a <- (a <- rd w (i + ws) ;; b <- rd w (i + ws + 1) ;; a <- shr t a (Z.of_nat (off)) ;; b <- shl true t b (Z.of_nat (W - off)) ;; Ok (Z.lor a b)) ;; wr w i a) w (length w)) as (l & E & Ll & N1);
          [reflexivity|lia| |].
        { intros i l I Li H. rewrite !rd_nth_d by lia. cbn [bind]. rewrite !H by lia. rewrite shr_eq by (try apply V; lia). cbn [bind]. rewrite shl_eq by lia. cbn [bind].
          apply wr_ok. lia. }
        rewrite E. cbn [bind]. rewrite rd_nth_d by lia. cbn [bind]. rewrite (N1 (length w - 1)%nat) by lia. cbn [Nat.leb andb Nat.add].
        replace (Nat.ltb (length w - 1) (length w - ws - 1)) with false by (symmetry; apply Nat.ltb_ge; lia).
        rewrite shr_eq by (try apply V; lia). cbn [bind]. rewrite wr_ok by lia. cbn [bind].
        destruct (zero_fill_hi (upd l (length w - ws - 1) (shrv (nth (length w - 1) w 0) (off))) (length w - ws - 1 + 1) (length w) ltac:(now rewrite upd_len) ltac:(lia)) as (l' & -> & Ll' & N2). f_equal.
        apply nth_map_seq; [exact Ll'|]. intros j J. rewrite (N2 j J). unfold rightg. replace (Nat.eqb (off) 0) with false by (symmetry; apply Nat.eqb_neq; exact O).
        destruct (Nat.ltb_spec j (length w - ws - 1 + 1)).
        * destruct (Nat.eqb_spec j (length w - ws - 1)) as [->|Ne].
          { rewrite upd_nth_eq' by lia. rewrite Nat.ltb_irrefl. reflexivity. }
          rewrite upd_nth_neq' by lia. rewrite (N1 j J). cbn [Nat.leb andb Nat.add].
          replace (Nat.ltb j (length w - ws - 1)) with true by (symmetry; apply Nat.ltb_lt; lia). reflexivity.
        * replace (Nat.ltb j (length w - ws - 1)) with false by (symmetry; apply Nat.ltb_ge; lia). replace (Nat.eqb j (length w - ws - 1)) with false by (symmetry; apply Nat.eqb_neq; lia). reflexivity.
  Qed.
  Lemma rightg_ok N w shift q r : raw N w -> (q < length w)%nat -> (r < W)%nat -> (shift < length w * W)%nat ->
    is_val t (rightg w (shift / W) (shift mod W) q) /\ Z.testbit (rightg w (shift / W) (shift mod W) q) (Z.of_nat r) = bit_at w (q * W + r + shift).
  Proof.
    intros R Q Hr S. destruct (wpos t) as [_ Wp]. destruct (split_shift shift) as [Sh Mo]. unfold rightg.
    set (ws := (shift / W)%nat) in *. set (off := (shift mod W)%nat) in *. clearbody ws off.
    assert (Ws : (ws < length w)%nat) by nia.
    assert (V : forall q, is_val t (nth q w 0)) by (intros p; eapply nth_val, R; exact U).
    assert (Out : forall q r, (length w <= q)%nat -> (r < W)%nat -> bit_at w (q * W + r) = false).
    { intros p s P Hs. rewrite bit_qr by exact Hs. rewrite nth_overflow by exact P. apply Z.bits_0. }
    destruct (Nat.eqb_spec off 0) as [O|O].
    - replace (q * W + r + shift)%nat with ((q + ws) * W + r)%nat by nia. destruct (Nat.leb_spec q (length w - ws - 1)) as [L|L].
      + split; [apply V|]. symmetry. apply bit_qr, Hr.
      + split; [apply zero_word|]. rewrite Z.bits_0, Out by lia. reflexivity.
    - assert (P : (r + off < W -> q * W + r + shift = (q + ws) * W + (r + off))%nat) by nia.
      assert (P' : (W <= r + off -> q * W + r + shift = (q + ws + 1) * W + (r + off - W))%nat) by nia.
      destruct (Nat.ltb_spec q (length w - ws - 1)) as [L|L].
      + split; [apply or_word; [exact U|apply shrv_val; [apply V|lia]|apply shlv_val; lia]|].
        rewrite Z.lor_spec, shlv_bit, shrv_bit by (try apply V; lia).
        destruct (Nat.leb_spec (W - off) r) as [A|A]; cbn [andb orb].
        * rewrite (val_high t U _ (r + off)) by (try apply V; lia). cbn [orb]. rewrite P' by lia. rewrite bit_qr by lia. f_equal. lia.
        * rewrite orb_false_r, P by lia. rewrite bit_qr by lia. reflexivity.
      + destruct (Nat.eqb_spec q (length w - ws - 1)) as [E|Ne].
        * split; [apply shrv_val; [apply V|lia]|]. rewrite shrv_bit by (try apply V; lia). replace (length w - 1)%nat with (q + ws)%nat by lia.
          destruct (Nat.lt_ge_cases (r + off) W) as [A|A].
          { rewrite P by exact A. rewrite bit_qr by exact A. reflexivity. }
          rewrite P' by exact A. rewrite Out by lia. apply (val_high t U); [apply V|exact A].
        * split; [apply zero_word|]. rewrite Z.bits_0. destruct (Nat.lt_ge_cases (r + off) W) as [A|A]; [rewrite P by exact A|rewrite P' by exact A]; rewrite Out by lia; reflexivity.
  Qed.
  Lemma right_ok N w shift cst : raw N w -> (shift < N)%nat ->
    exists l, right_words t cst w shift = Ok l /\ raw N l /\ length l = length w /\
      forall i, (i < length w * W)%nat -> bit_at l i = bit_at w (i + shift).
  Proof.
    intros R S. pose proof R as [A F]. destruct (wpos t) as [_ Wp].
    assert (One : forall x, w = [x] -> (shift < W)%nat -> exists l, right_words t cst w shift = Ok l /\ raw N l /\ length l = length w /\
      forall i, (i < length w * W)%nat -> bit_at l i = bit_at w (i + shift)).
    { intros x -> Ss. inversion F as [|? ? V _]. subst. cbn [length] in A. cbn [right_words]. rewrite shr_eq by assumption. cbn [bind].
      eexists. split; [reflexivity|]. split; [split; [cbn [length]; lia|constructor; [apply shrv_val; assumption|constructor]]|]. split; [reflexivity|].
      intros i I. cbn [length] in I. replace i with (0 * W + i)%nat at 1 by lia. rewrite bit_qr by lia. cbn [nth]. rewrite shrv_bit by assumption.
      destruct (Nat.lt_ge_cases (i + shift) W) as [B|B].
      - replace (i + shift)%nat with (0 * W + (i + shift))%nat at 2 by lia. rewrite bit_qr by lia. reflexivity.
      - replace (i + shift)%nat with (1 * W + (i + shift - W))%nat at 2 by lia. rewrite bit_qr by lia. cbn [nth]. rewrite Z.bits_0. apply (val_high t U); assumption. }
    destruct (Nat.lt_ge_cases 1 (length w)) as [L|L].
    - destruct (Nat.eq_dec shift 0) as [Z0|Z0].
      + subst shift. destruct w as [|x [|y w0]]; [cbn [length] in L; lia|cbn [length] in L; lia|]. exists (x :: y :: w0).
        split; [reflexivity|]. split; [exact R|]. split; [reflexivity|]. intros i _. rewrite Nat.add_0_r. reflexivity.
      + rewrite (right_two N) by (try assumption; lia). eexists. split; [reflexivity|]. split; [|split; [now rewrite map_length, seq_length|]].
        * apply map_raw; [exact R|]. intros q Q. apply (rightg_ok N w shift q 0 R Q); lia.
        * intros i I. destruct (in_qr t i _ I) as (q & r & Q & Hr & ->). rewrite (bit_qr t _ q r Hr), map_seq_nth by exact Q. apply (rightg_ok N w shift q r R Q Hr). lia.
    - destruct w as [|x [|y w0]]; [cbn [length] in A; lia| |cbn [length] in L; lia]. apply (One x eq_refl). cbn [length] in A. lia.
  Qed.
  Lemma right_lemma N w f p cst : bits_are N w f ->
    exists r, bs_right t N cst w p = Ok r /\ bits_are N r (fun i => Nat.ltb (i + p) N && f (i + p)%nat)%bool.
  Proof.
    intros F. pose proof (bits_raw _ _ _ _ F) as R. unfold bs_right. destruct (Nat.ltb_spec p N) as [L|L].
    - destruct (right_ok N w p cst R L) as (l & -> & Rl & Ll & B). cbn [bind]. destruct (sanitize_ok t U N l Rl) as (r & -> & H). exists r. split; [reflexivity|].
      eapply bits_ext; [exact H|]. intros i I. destruct R as [A _]. rewrite B by lia.
      destruct (Nat.lt_ge_cases (i + p) (length w * W)) as [C|C].
      + destruct F as (_ & _ & F). apply F, C.
      + replace (Nat.ltb (i + p) N) with false by (symmetry; apply Nat.ltb_ge; lia). cbn [andb].
        unfold BsSpec.bit_at. rewrite nth_overflow; [apply Z.bits_0|]. destruct (wpos t) as [_ Wp]. apply Nat.div_le_lower_bound; lia.
    - destruct (fill_lemma t cst N w R) as (r & -> & H). exists r. split; [reflexivity|]. eapply bits_ext; [exact H|].
      intros i I. replace (Nat.ltb (i + p) N) with false by (symmetry; apply Nat.ltb_ge; lia). reflexivity.
  Qed.
End Bs.
