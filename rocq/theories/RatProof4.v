From Coq Require Import List Arith ZArith QArith Bool Lia Znumtheory.
From Coq Require Import ZifyBool ZifyNat.
From Verif Require Import Base BitModel BitSpec BitProof CharProof RatModel RatSpec RatProof RatProof2 RatProof3.
Open Scope Z_scope.

Section R.
  Variable il : nat.
  Variable md : bool.
  Variable t : ity.
  Variable r : nat.
  Hypothesis Hw : wide il t.
  Hypothesis Hr : 6 * wid t + 1 <= Z.of_nat r.
  Notation range := (range il t Hw).
  Notation arith_in := (arith_in il t r Hw).
  Notation arith_inv := (arith_inv il t r Hw).
  Notation arith_out := (arith_out il t r Hw).
  Notation gcd_in := (gcd_in il md t r Hw Hr).
  Notation gcd_inv := (gcd_inv il md t r Hw Hr).
  Notation cdiv_pos := (cdiv_pos t r).
  Notation shrink := (shrink r).
  Notation qmul := (qmul r).

  Lemma rat_bounds x : is_rat t x -> - tmax t - 1 <= fst x <= tmax t /\ 0 < snd x <= tmax t /\ Z.gcd (fst x) (snd x) = 1.
  Proof. intros (A & B & C & D). apply range in A, B. split; [lia|]. split; [lia|exact D]. Qed.

  (** ** / *)
  Lemma div_core n1 d1 n2 d2 : 0 < d1 -> 0 < d2 -> n2 <> 0 -> n1 <> 0 -> Z.gcd n1 d1 = 1 -> Z.gcd n2 d2 = 1 ->
    let g1 := Z.gcd n1 n2 in let g2 := Z.gcd d2 d1 in
    0 < g1 /\ 0 < g2 /\ exists a1 b2 a2 b1, n1 = g1 * a1 /\ n2 = g1 * b2 /\ d2 = g2 * a2 /\ d1 = g2 * b1 /\ 0 < b1 /\ b2 <> 0 /\ 0 < a2 /\
    Z.gcd (a1 * a2) (b1 * b2) = 1.
  Proof.
    intros Hd1 Hd2 N2 N1 G1 G2 g1 g2.
    assert (P1 : 0 < g1).
    { unfold g1. pose proof (Z.gcd_nonneg n1 n2). assert (Z.gcd n1 n2 <> 0) by (intros E; apply Z.gcd_eq_0_r in E; lia). lia. }
    assert (P2 : 0 < g2).
    { unfold g2. pose proof (Z.gcd_nonneg d2 d1). assert (Z.gcd d2 d1 <> 0) by (intros E; apply Z.gcd_eq_0_r in E; lia). lia. }
    split; [exact P1|]. split; [exact P2|].
    destruct (gcd_parts n1 n2) as (a1 & b2 & Ea1 & Eb2 & H12); [fold g1; lia|]. fold g1 in Ea1, Eb2. clearbody g1.
    destruct (gcd_parts d2 d1) as (a2 & b1 & Ea2 & Eb1 & H21); [fold g2; lia|]. fold g2 in Ea2, Eb1. clearbody g2.
    exists a1, b2, a2, b1. repeat (split; [first [assumption|nia]|]).
    assert (H11 : Z.gcd a1 b1 = 1) by (apply (coprime_div2 n1 d1); [exact G1|exists g1; lia|exists g2; lia]).
    assert (H22 : Z.gcd a2 b2 = 1) by (apply coprime_sym; apply (coprime_div2 n2 d2); [exact G2|exists g1; lia|exists g2; lia]).
    apply coprime_mul; apply coprime_sym; apply coprime_mul; now apply coprime_sym.
  Qed.

  (** the quotient in lowest terms, with the denominator made positive *)
  Definition flip (n d : Z) : Z * Z := if d <? 0 then (- n, - d) else (n, d).
  Lemma div_shape x y : is_rat t x -> is_rat t y -> fst x <> 0 -> fst y <> 0 ->
    exists n d, d <> 0 /\ Z.gcd n d = 1 /\ n * (snd x * fst y) = fst x * snd y * d /\
      (forall z, div il md t r x y = Ok z -> z = Some (flip n d) /\ is_val t (fst (flip n d)) /\ is_val t (snd (flip n d))) /\
      (Z.abs (fst x) <= tmax t -> Z.abs (fst y) <= tmax t -> Z.abs n <= tmax t -> Z.abs d <= tmax t ->
       div il md t r x y = Ok (Some (flip n d))).
  Proof.
    intros Hx Hy Nx Ny. destruct (rat_bounds x Hx) as (Vn1 & Vd1 & G1), (rat_bounds y Hy) as (Vn2 & Vd2 & G2).
    destruct x as [n1 d1], y as [n2 d2]. cbn [fst snd] in *.
    destruct (div_core n1 d1 n2 d2) as (Pg1 & Pg2 & a1 & b2 & a2 & b1 & E1 & E2 & E3 & E4 & Pb1 & Pb2 & Pa2 & C); try assumption; try lia.
    exists (a1 * a2), (b1 * b2). split; [nia|]. split; [exact C|]. split.
    { set (g1 := Z.gcd n1 n2) in *. set (g2 := Z.gcd d2 d1) in *. clearbody g1 g2. rewrite E1, E2, E3, E4. ring. }
    unfold div. cbn [fst snd]. destruct (Z.eqb_spec n2 0); [lia|]. destruct (Z.eqb_spec n1 0); [lia|]. split.
    - intros z E. destruct (gcd il md t r n1 n2) as [h| |] eqn:A1; try discriminate.
      destruct (gcd_inv _ _ _ (proj2 (range n1) Vn1) (proj2 (range n2) Vn2) A1) as (-> & R1 & R2). cbn [bind] in E.
      rewrite gcd_in in E by lia. cbn [bind] in E.
      rewrite (cdiv_pos n1 _ a1), (cdiv_pos n2 _ b2), (cdiv_pos d1 _ b1), (cdiv_pos d2 _ a2) in E by assumption. cbn [bind] in E.
      destruct (arith t (a1 * a2)) as [u| |] eqn:A3; try discriminate. destruct (arith_inv _ _ A3) as [-> R3]. cbn [bind] in E.
      destruct (arith t (b1 * b2)) as [v| |] eqn:A4; try discriminate. destruct (arith_inv _ _ A4) as [-> R4]. cbn [bind] in E.
      unfold flip. rewrite !range. destruct (Z.ltb_spec (b1 * b2) 0).
      + destruct (arith t (- (a1 * a2))) as [u| |] eqn:A5; try discriminate. destruct (arith_inv _ _ A5) as [-> R5]. cbn [bind] in E.
        destruct (arith t (- (b1 * b2))) as [u| |] eqn:A6; try discriminate. destruct (arith_inv _ _ A6) as [-> R6]. cbn [bind] in E.
        injection E as <-. split; [reflexivity|]. split; assumption.
      + injection E as <-. split; [reflexivity|]. split; assumption.
    - intros R1 R2 R3 R4. rewrite !gcd_in by lia. cbn [bind].
      rewrite (cdiv_pos n1 _ a1), (cdiv_pos n2 _ b2), (cdiv_pos d1 _ b1), (cdiv_pos d2 _ a2) by assumption. cbn [bind].
      rewrite !arith_in by lia. cbn [bind]. unfold flip. destruct (Z.ltb_spec (b1 * b2) 0); [|reflexivity].
      rewrite !arith_in by lia. reflexivity.
  Qed.
  Lemma flip_facts n d : d <> 0 -> Z.gcd n d = 1 -> 0 < snd (flip n d) /\ Z.gcd (fst (flip n d)) (snd (flip n d)) = 1 /\
    fst (flip n d) * d = n * snd (flip n d).
  Proof.
    intros N G. unfold flip. destruct (Z.ltb_spec d 0); cbn [fst snd].
    - rewrite Z.gcd_opp_l, Z.gcd_opp_r. split; [lia|]. split; [exact G|ring].
    - split; [lia|]. split; [exact G|ring].
  Qed.
  Lemma qdiv x y z : 0 < snd x -> 0 < snd y -> 0 < snd z -> fst y <> 0 ->
    (qv z == qv x / qv y)%Q <-> fst z * (snd x * fst y) = fst x * snd y * snd z.
  Proof.
    intros Px Py Pz Ny. destruct x as [n1 d1], y as [n2 d2], z as [n d]. cbn [fst snd] in *.
    assert (E : (qv (n, d) == qv (n1, d1) / qv (n2, d2))%Q <-> (qv (n, d) * qv (n2, d2) == qv (n1, d1))%Q).
    { assert (N : ~ (qv (n2, d2) == 0)%Q) by (unfold Qeq, qv; cbn; lia).
      split; intros H.
      - rewrite H. field. exact N.
      - rewrite <- H. field. exact N. }
    rewrite E, qmul by assumption. rewrite qv_cross by (cbn [fst snd]; nia). cbn [fst snd].
    split; intros H; [|apply (Z.mul_reg_r _ _ 1); [lia|]]; nia.
  Qed.
  Lemma div_correct x y z : is_rat t x -> is_rat t y -> div il md t r x y = Ok z ->
    (fst y = 0 <-> z = None) /\ (forall w, z = Some w -> is_rat t w /\ (qv w == qv x / qv y)%Q).
  Proof.
    intros Hx Hy E. destruct (Z.eq_dec (fst y) 0) as [Zy|Ny].
    { unfold div in E. rewrite Zy in E. cbn [Z.eqb] in E. injection E as <-. split; [tauto|discriminate]. }
    destruct (Z.eq_dec (fst x) 0) as [Zx|Nx].
    { unfold div in E. destruct (Z.eqb_spec (fst y) 0); [lia|]. rewrite Zx in E. cbn [Z.eqb] in E. injection E as <-.
      split; [split; [lia|discriminate]|]. intros w [= <-]. split; [exact Hx|].
      destruct Hx as (_ & _ & Px & _), Hy as (_ & _ & Py & _). apply qdiv; try assumption. rewrite Zx. ring. }
    destruct (div_shape x y Hx Hy Nx Ny) as (n & d & Nd & C & V & I & _). destruct (I z E) as (-> & R1 & R2).
    split; [split; [lia|discriminate]|]. intros w [= <-]. destruct (flip_facts n d Nd C) as (Pd & C' & F).
    split; [unfold is_rat; auto|]. destruct Hx as (_ & _ & Px & _), Hy as (_ & _ & Py & _). apply qdiv; try assumption.
    apply (Z.mul_reg_r _ _ d); [exact Nd|].
    replace (fst (flip n d) * (snd x * fst y) * d) with (fst (flip n d) * d * (snd x * fst y)) by ring. rewrite F.
    replace (n * snd (flip n d) * (snd x * fst y)) with (n * (snd x * fst y) * snd (flip n d)) by ring. rewrite V. ring.
  Qed.
  Lemma div_defined x y z : is_rat t x -> is_rat t y -> Z.abs (fst x) <= tmax t -> Z.abs (fst y) <= tmax t -> fst y <> 0 ->
    is_rat t z -> Z.abs (fst z) <= tmax t -> (qv z == qv x / qv y)%Q -> div il md t r x y = Ok (Some z).
  Proof.
    intros Hx Hy Bx By Ny Hz Bz E. assert (Hx' := Hx). assert (Hy' := Hy). assert (Hz' := Hz).
    destruct Hx' as (_ & _ & Px & Gx), Hy' as (_ & _ & Py & _), (rat_bounds z Hz) as (_ & Bd & Gz), Hz' as (_ & _ & Pz & _).
    apply qdiv in E; try assumption. destruct (Z.eq_dec (fst x) 0) as [Zx|Nx].
    { unfold div. destruct (Z.eqb_spec (fst y) 0) as [|N0]; [lia|]. rewrite Zx. cbn [Z.eqb]. do 2 f_equal. rewrite Zx in *.
      destruct x as [n1 d1], z as [n d]. cbn [fst snd] in *. rewrite Z.gcd_0_l in Gx. assert (n = 0) by nia. subst n n1.
      rewrite Z.gcd_0_l in Gz. f_equal. lia. }
    destruct (div_shape x y Hx Hy Nx Ny) as (n & d & Nd & C & V & _ & I). destruct (flip_facts n d Nd C) as (Pd & C' & F).
    assert (K : fst (flip n d) * snd z = fst z * snd (flip n d)).
    { apply (Z.mul_reg_r _ _ d); [exact Nd|]. apply (Z.mul_reg_r _ _ (snd x * fst y)); [nia|].
      replace (fst (flip n d) * snd z * d * (snd x * fst y)) with (fst (flip n d) * d * snd z * (snd x * fst y)) by ring. rewrite F.
      replace (n * snd (flip n d) * snd z * (snd x * fst y)) with (n * (snd x * fst y) * snd z * snd (flip n d)) by ring. rewrite V.
      replace (fst z * snd (flip n d) * d * (snd x * fst y)) with (fst z * (snd x * fst y) * snd (flip n d) * d) by ring. rewrite E. ring. }
    destruct (lowest_unique _ _ _ _ Pd Pz C' Gz K) as [A B]. rewrite I; try assumption.
    - destruct (flip n d), z. cbn [fst snd] in *. now subst.
    - assert (Z.abs n = Z.abs (fst (flip n d))) by (unfold flip; destruct (_ <? 0); cbn [fst]; lia). lia.
    - assert (Z.abs d = Z.abs (snd (flip n d))) by (unfold flip; destruct (_ <? 0); cbn [snd]; lia). lia.
  Qed.

  (** ** The constructor *)
  Lemma make_lemma n d : d <> 0 -> (n <> 0 -> Z.abs n <= tmax t /\ Z.abs d <= tmax t) -> is_val t d ->
    exists z, make il md t r n d = Ok (Some z) /\ is_rat t z /\ fst z * d = n * snd z.
  Proof.
    intros Nd H Vd. unfold make. destruct (Z.eqb_spec d 0); [lia|]. pose proof (tpos t) as T. apply range in Vd.
    destruct (Z.eqb_spec n 0) as [-> | Nn].
    - exists (0, 1). cbn [bind]. assert (D0 : cdiv t 0 d = Ok 0).
      { unfold cdiv. destruct (Z.eqb_spec d 0); [lia|]. destruct (Z.eqb_spec 0 (tmin t)) as [E|E].
        - destruct Hw as [S _]. rewrite tmin_tmax in E by exact S. lia.
        - rewrite andb_false_r. cbn [orb andb]. now rewrite Z.quot_0_l. }
      assert (D1 : cdiv t d d = Ok 1).
      { unfold cdiv. destruct (Z.eqb_spec d 0); [lia|]. destruct Hw as [S _]. rewrite S, tmin_tmax by exact S.
        destruct (Z.eqb_spec d (- tmax t - 1)), (Z.eqb_spec d (-1)); try lia; cbn [orb andb]; now rewrite Z.quot_same. }
      rewrite D0. cbn [bind]. rewrite D1. cbn [bind]. split; [reflexivity|]. split; [|reflexivity].
      unfold is_rat. cbn [fst snd]. rewrite !range. repeat split; try lia.
    - destruct (H Nn) as [Bn Bd]. rewrite gcd_in by assumption. cbn [bind].
      assert (G0 : Z.gcd n d <> 0) by (intros E; apply Z.gcd_eq_0_r in E; lia). pose proof (Z.gcd_nonneg n d) as G1.
      destruct (gcd_parts n d G0) as (n' & d' & En & Ed & C). assert (Pg : 0 < Z.gcd n d) by lia.
      rewrite (cdiv_pos d _ d') by assumption. cbn [bind].
      pose proof (shrink _ _ _ Pg En) as Ln. pose proof (shrink _ _ _ Pg Ed) as Ld.
      assert (Lg : Z.gcd n d <= tmax t) by (rewrite <- Z.gcd_abs_l, <- Z.gcd_abs_r; apply gcd_le; lia).
      set (g := Z.gcd n d) in *. clearbody g. exists (flip n' d'). assert (Nd' : d' <> 0) by nia.
      destruct (flip_facts n' d' Nd' C) as (F1 & F2 & F3). split.
      + unfold flip. destruct (Z.ltb_spec d' 0) as [L|L]; cbn [bind].
        * rewrite arith_in by lia. cbn [bind].
          assert (Dq : forall x k, x = g * k -> Z.abs x <= tmax t -> cdiv t x (- g) = Ok (- k)).
          { intros x k E B. unfold cdiv. destruct (Z.eqb_spec (- g) 0); [lia|]. destruct Hw as [S _]. rewrite S, tmin_tmax by exact S.
            destruct (Z.eqb_spec x (- tmax t - 1)); [lia|]. cbn [orb andb]. rewrite (quot_exact x (- g) (- k)) by (lia || nia). reflexivity. }
          rewrite (Dq n n'), (Dq d d') by assumption. reflexivity.
        * rewrite (cdiv_pos n _ n'), (cdiv_pos d _ d') by assumption. reflexivity.
      + split.
        * unfold is_rat. rewrite !range. unfold flip in *. destruct (Z.ltb_spec d' 0); cbn [fst snd] in *; repeat split; lia || assumption.
        * rewrite Ed, En. transitivity (g * (fst (flip n' d') * d')); [ring|]. rewrite F3. ring.
  Qed.
  Lemma make_zero n : make il md t r n 0 = Ok None.
  Proof. reflexivity. Qed.
  Lemma qmake n d z : d <> 0 -> 0 < snd z -> (qv z == inject_Z n / inject_Z d)%Q <-> fst z * d = n * snd z.
  Proof.
    intros Nd Pz. assert (N : ~ (inject_Z d == 0)%Q) by (unfold Qeq; cbn; lia).
    assert (E : (qv z == inject_Z n / inject_Z d)%Q <-> (qv z * inject_Z d == inject_Z n)%Q).
    { split; intros H; [rewrite H|rewrite <- H]; field; exact N. }
    rewrite E. unfold Qeq, qv, Qmult, inject_Z. cbn [Qnum Qden]. rewrite Pos.mul_1_r, Z2Pos.id by exact Pz. lia.
  Qed.
  Lemma make_correct n d : is_val t n -> is_val t d -> d <> 0 -> (n <> 0 -> n <> tmin t /\ d <> tmin t) ->
    exists z, make il md t r n d = Ok (Some z) /\ is_rat t z /\ (qv z == inject_Z n / inject_Z d)%Q.
  Proof.
    intros Vn Vd Nd H. assert (Vn' := Vn). assert (Vd' := Vd). apply range in Vn', Vd'. destruct Hw as [S _]. rewrite tmin_tmax in H by exact S.
    destruct (make_lemma n d Nd) as (z & E & R & F); [intros Nn; specialize (H Nn); lia|exact Vd|].
    exists z. split; [exact E|]. split; [exact R|]. apply qmake; [exact Nd|apply R|exact F].
  Qed.
  Lemma make_min n d : n <> 0 -> d <> 0 -> n = tmin t -> make il md t r n d = UB.
  Proof.
    intros Nn Nd E. unfold make. destruct (Z.eqb_spec d 0); [lia|]. destruct (Z.eqb_spec n 0); [lia|].
    destruct Hw as [S L]. rewrite E, gcd_min by assumption. reflexivity.
  Qed.

  (** ** Unary operators *)
  Lemma neg_correct x : is_rat t x -> fst x <> tmin t -> exists z, neg t x = Ok z /\ is_rat t z /\ (qv z == - qv x)%Q.
  Proof.
    intros Hx N. destruct (rat_bounds x Hx) as (Bn & Bd & G). destruct Hw as [S _]. rewrite tmin_tmax in N by exact S.
    unfold neg. rewrite arith_in by lia. cbn [bind]. exists (- fst x, snd x). split; [reflexivity|]. split.
    - unfold is_rat. cbn [fst snd]. rewrite !range, Z.gcd_opp_l. repeat split; lia || assumption.
    - unfold Qeq, qv, Qopp. cbn [fst snd Qnum Qden]. reflexivity.
  Qed.
  Lemma abs_correct x : is_rat t x -> fst x <> tmin t -> exists z, abs_r t x = Ok z /\ is_rat t z /\
    (0 <= qv z)%Q /\ (qv z == qv x \/ qv z == - qv x)%Q.
  Proof.
    intros Hx N. unfold abs_r. destruct (Z.leb_spec 0 (fst x)) as [L|L].
    - exists x. split; [reflexivity|]. split; [exact Hx|]. split; [unfold Qle, qv; cbn [Qnum Qden]; lia|left; reflexivity].
    - destruct (neg_correct x Hx N) as (z & E & R & Q). exists z. split; [exact E|]. split; [exact R|]. split; [|right; exact Q].
      rewrite Q. unfold Qle, qv, Qopp. cbn [Qnum Qden]. lia.
  Qed.
  Lemma inc_correct x z : is_rat t x -> inc t x = Ok z -> is_rat t z /\ (qv z == qv x + 1)%Q.
  Proof.
    intros Hx E. destruct (rat_bounds x Hx) as (Bn & Bd & G). unfold inc in E.
    destruct (arith t (fst x + snd x)) as [v| |] eqn:A; try discriminate. destruct (arith_inv _ _ A) as [-> R]. cbn [bind] in E. injection E as <-. split.
    - unfold is_rat. cbn [fst snd]. rewrite !range. repeat split; try lia. apply coprime_sym. rewrite Z.gcd_add_diag_r. now apply coprime_sym.
    - unfold Qeq, qv, Qplus. cbn [fst snd Qnum Qden]. rewrite Pos.mul_1_r, Z2Pos.id by lia. ring.
  Qed.
  Lemma dec_correct x z : is_rat t x -> dec_r t x = Ok z -> is_rat t z /\ (qv z == qv x - 1)%Q.
  Proof.
    intros Hx E. destruct (rat_bounds x Hx) as (Bn & Bd & G). unfold dec_r in E.
    destruct (arith t (fst x - snd x)) as [v| |] eqn:A; try discriminate. destruct (arith_inv _ _ A) as [-> R]. cbn [bind] in E. injection E as <-. split.
    - unfold is_rat. cbn [fst snd]. rewrite !range. repeat split; try lia. apply coprime_sym.
      replace (fst x - snd x) with (fst x + (-1) * snd x) by ring. rewrite Z.gcd_add_mult_diag_r. now apply coprime_sym.
    - unfold Qeq, qv, Qminus, Qplus, Qopp. cbn [fst snd Qnum Qden]. rewrite Pos.mul_1_r, Z2Pos.id by lia. ring.
  Qed.
  Lemma inc_defined x : is_rat t x -> is_val t (fst x + snd x) -> exists z, inc t x = Ok z.
  Proof. intros Hx H. apply range in H. unfold inc. rewrite arith_in by exact H. eexists. reflexivity. Qed.
  Lemma dec_defined x : is_rat t x -> is_val t (fst x - snd x) -> exists z, dec_r t x = Ok z.
  Proof. intros Hx H. apply range in H. unfold dec_r. rewrite arith_in by exact H. eexists. reflexivity. Qed.
  Lemma of_int_correct n : is_val t n -> is_rat t (of_int n) /\ (qv (of_int n) == inject_Z n)%Q.
  Proof.
    intros V. split; [|reflexivity]. unfold is_rat, of_int. cbn [fst snd]. split; [exact V|]. rewrite range. pose proof (tpos t). rewrite Z.gcd_1_r. lia.
  Qed.

  (** ** Compound assignments *)
  Lemma add_assign_eq plus x y : add_assign il md t r plus false x y = add il md t r plus x y.
  Proof. reflexivity. Qed.
  Lemma mul_assign_eq x y : mul_assign il md t r false x y = mul il md t r x y.
  Proof. reflexivity. Qed.
  Lemma div_assign_eq x y : div_assign il md t r false x y = div il md t r x y.
  Proof. reflexivity. Qed.
  (** with the object itself on the right *)
  Lemma mul_assign_self x : is_rat t x -> mul_assign il md t r true x x = mul il md t r x x.
  Proof.
    intros Hx. destruct (rat_bounds x Hx) as (Bn & Bd & G). unfold mul_assign, mul.
    destruct (gcd il md t r (fst x) (snd x)) as [g| |]; reflexivity.
  Qed.
  Lemma add_assign_self plus x : is_rat t x -> 2 <= snd x -> Z.abs (fst x) <= tmax t ->
    add_assign il md t r plus true x x = Ok (sg plus * fst x, 1).
  Proof.
    intros Hx H2 Hn. destruct (rat_bounds x Hx) as (Bn & Bd & G). destruct x as [n d]. cbn [fst snd] in *.
    unfold add_assign. cbn [fst snd]. rewrite gcd_in by lia. cbn [bind]. rewrite Z.gcd_diag, Z.abs_eq by lia.
    rewrite (cdiv_pos d d 1) by lia. cbn [bind fst snd].
    assert (D : cdiv t 1 d = Ok 0).
    { unfold cdiv. destruct (Z.eqb_spec d 0), (Z.eqb_spec d (-1)); try lia. rewrite andb_false_r. cbn [orb]. now rewrite Z.quot_small by lia. }
    rewrite D. cbn [bind]. rewrite Z.mul_0_r, Z.mul_1_r, !arith_in by lia. cbn [bind].
    assert (E : (if plus then 0 + n else 0 - n) = sg plus * n) by (unfold sg; destruct plus; lia). rewrite E.
    assert (A : Z.abs (sg plus * n) = Z.abs n) by (unfold sg; destruct plus; lia).
    rewrite arith_in by lia. cbn [bind fst snd]. rewrite gcd_in by lia. cbn [bind].
    assert (C : Z.gcd (sg plus * n) d = 1) by (rewrite <- Z.gcd_abs_l, A, Z.gcd_abs_l; exact G). rewrite C.
    rewrite (cdiv_pos _ 1 (sg plus * n)), (cdiv_pos 1 1 1) by lia. cbn [bind fst snd]. rewrite arith_in by (pose proof (tpos t); lia). reflexivity.
  Qed.
  Lemma div_assign_self x : is_rat t x -> 2 <= Z.abs (fst x) <= tmax t ->
    exists n, div_assign il md t r true x x = Ok (Some (n, 0)).
  Proof.
    intros Hx Hn. destruct (rat_bounds x Hx) as (Bn & Bd & G). destruct x as [n d]. cbn [fst snd] in *.
    unfold div_assign. cbn [fst snd]. destruct (Z.eqb_spec n 0); [lia|]. rewrite !gcd_in by lia. cbn [bind]. rewrite !Z.gcd_diag, (Z.abs_eq d) by lia.
    rewrite (cdiv_pos n (Z.abs n) (Z.sgn n)) by (try lia; symmetry; rewrite Z.mul_comm; apply Z.sgn_abs). rewrite (cdiv_pos d d 1) by lia. cbn [bind]. rewrite Z.mul_1_r.
    assert (Sg : Z.abs (Z.sgn n) = 1) by (destruct n; cbn; lia). pose proof (tpos t).
    rewrite arith_in by lia. cbn [bind fst snd].
    assert (D : cdiv t (Z.sgn n) (Z.abs n) = Ok 0).
    { unfold cdiv. destruct (Z.eqb_spec (Z.abs n) 0), (Z.eqb_spec (Z.abs n) (-1)); try lia. rewrite andb_false_r. cbn [orb]. f_equal.
      apply Z.quot_small_iff; lia. }
    rewrite D. cbn [bind]. rewrite arith_in by lia. cbn [bind fst snd]. exists (Z.sgn n). reflexivity.
  Qed.
End R.

Lemma mul_assign_self' il md t r x : wide il t -> is_rat t x -> mul_assign il md t r true x x = mul il md t r x x.
Proof. intros _ _. reflexivity. Qed.
Lemma add_assign_self_wrong il md t r : wide il t -> 6 * wid t + 1 <= Z.of_nat r ->
  forall x, is_rat t x -> 3 <= snd x -> Z.abs (fst x) <= tmax t ->
  exists z, add_assign il md t r true true x x = Ok z /\ ~ (qv z == qv x + qv x)%Q.
Proof.
  intros Hw Hr x Hx H3 Hn. eexists. split; [apply (add_assign_self il md t r Hw Hr true x Hx); [lia|exact Hn]|].
  destruct (rat_bounds il t r Hw x Hx) as (_ & Bd & G). unfold Qeq, qv, Qplus, sg. cbn [fst snd Qnum Qden].
  rewrite Pos2Z.inj_mul. change (Z.to_pos 1) with 1%positive. rewrite !Z2Pos.id by lia. intros E.
  assert (N : fst x <> 0) by (intros Z0; rewrite Z0, Z.gcd_0_l in G; lia).
  assert (F : fst x * snd x * (snd x - 2) = 0) by lia. apply Z.mul_eq_0 in F. destruct F as [F|F]; [|lia]. nia.
Qed.
Lemma sub_assign_self_wrong il md t r : wide il t -> 6 * wid t + 1 <= Z.of_nat r ->
  forall x, is_rat t x -> 2 <= snd x -> Z.abs (fst x) <= tmax t ->
  exists z, add_assign il md t r false true x x = Ok z /\ ~ (qv z == 0)%Q.
Proof.
  intros Hw Hr x Hx H2 Hn. eexists. split; [apply (add_assign_self il md t r Hw Hr false x Hx); assumption|].
  destruct (rat_bounds il t r Hw x Hx) as (_ & Bd & G). unfold Qeq, qv, sg. cbn [fst snd Qnum Qden].
  assert (N : fst x <> 0) by (intros Z0; rewrite Z0, Z.gcd_0_l in G; lia). lia.
Qed.
