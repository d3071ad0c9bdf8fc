From Coq Require Import List Arith ZArith QArith Bool Lia Znumtheory.
From Coq Require Import ZifyBool ZifyNat.
From Verif Require Import Base BitModel BitSpec BitProof CharProof RatModel RatSpec RatProof RatProof2.
Open Scope Z_scope.

(** * Facts about coprime numbers *)
Lemma coprime_sym a b : Z.gcd a b = 1 -> Z.gcd b a = 1.
Proof. now rewrite Z.gcd_comm. Qed.
Lemma coprime_mul a b c : Z.gcd a b = 1 -> Z.gcd a c = 1 -> Z.gcd a (b * c) = 1.
Proof. rewrite !Zgcd_1_rel_prime. apply rel_prime_mult. Qed.
Lemma coprime_div a b c : Z.gcd a b = 1 -> (c | a) -> Z.gcd c b = 1.
Proof. rewrite !Zgcd_1_rel_prime. apply rel_prime_div. Qed.
Lemma coprime_div2 a b c e : Z.gcd a b = 1 -> (c | a) -> (e | b) -> Z.gcd c e = 1.
Proof. intros H Hc He. apply coprime_sym. apply coprime_div with b; [|exact He]. apply coprime_sym. now apply coprime_div with a. Qed.
Lemma gcd_strip a b c : Z.gcd a c = 1 -> Z.gcd a (b * c) = Z.gcd a b.
Proof.
  intros H. apply Z.divide_antisym_nonneg; try apply Z.gcd_nonneg.
  - apply Z.gcd_greatest; [apply Z.gcd_divide_l|]. apply Z.gauss with c; [rewrite Z.mul_comm; apply Z.gcd_divide_r|].
    apply coprime_div with a; [exact H|apply Z.gcd_divide_l].
  - apply Z.gcd_greatest; [apply Z.gcd_divide_l|]. apply Z.divide_mul_l, Z.gcd_divide_r.
Qed.
Lemma gcd_parts a b : Z.gcd a b <> 0 -> exists a' b', a = Z.gcd a b * a' /\ b = Z.gcd a b * b' /\ Z.gcd a' b' = 1.
Proof.
  intros N. destruct (Z.gcd_divide_l a b) as [a' Ea], (Z.gcd_divide_r a b) as [b' Eb]. exists a', b'. split; [lia|]. split; [lia|].
  assert (H := Z.gcd_div_gcd a b _ N eq_refl). set (g := Z.gcd a b) in *. clearbody g. subst a b. now rewrite !Z.div_mul in H by exact N.
Qed.
(** equal fractions in lowest terms are identical *)
Lemma lowest_unique n d n' d' : 0 < d -> 0 < d' -> Z.gcd n d = 1 -> Z.gcd n' d' = 1 -> n * d' = n' * d -> n = n' /\ d = d'.
Proof.
  intros Hd Hd' G G' E. assert (D1 : (d | d')).
  { apply Z.gauss with n; [exists n'; lia|]. now apply coprime_sym. }
  assert (D2 : (d' | d)).
  { apply Z.gauss with n'; [exists n; lia|]. now apply coprime_sym. }
  assert (d = d') by (apply Z.divide_antisym_nonneg; lia || assumption). subst. split; [|reflexivity]. nia.
Qed.

(** sums and differences (Knuth): [s] is the sign of the second operand *)
Lemma sum_core n1 d1 n2 d2 s : 0 < d1 -> 0 < d2 -> Z.gcd n1 d1 = 1 -> Z.gcd n2 d2 = 1 -> s = 1 \/ s = -1 ->
  let g := Z.gcd d1 d2 in
  0 < g /\ exists e1 e2, d1 = g * e1 /\ d2 = g * e2 /\ 0 < e1 /\ 0 < e2 /\
  let num := n1 * e2 + s * (n2 * e1) in
  let g2 := Z.gcd num g in
  0 < g2 /\ exists N f, num = g2 * N /\ d2 = g2 * f /\ 0 < f /\
  Z.gcd N (e1 * f) = 1 /\ N * (d1 * d2) = (n1 * d2 + s * (n2 * d1)) * (e1 * f).
Proof.
  intros Hd1 Hd2 G1 G2 Hs g. assert (Pg : 0 < g).
  { unfold g. pose proof (Z.gcd_nonneg d1 d2). assert (Z.gcd d1 d2 <> 0) by (intros E; apply Z.gcd_eq_0_l in E; lia). lia. }
  split; [exact Pg|]. destruct (gcd_parts d1 d2) as (e1 & e2 & E1 & E2 & E12); [fold g; lia|]. fold g in E1, E2. clearbody g.
  exists e1, e2. split; [exact E1|]. split; [exact E2|]. assert (P1 : 0 < e1) by nia. assert (P2 : 0 < e2) by nia.
  split; [exact P1|]. split; [exact P2|]. intros num g2. assert (Pg2 : 0 < g2).
  { unfold g2. pose proof (Z.gcd_nonneg num g). assert (Z.gcd num g <> 0) by (intros E; apply Z.gcd_eq_0_r in E; lia). lia. }
  split; [exact Pg2|].
  assert (C1 : Z.gcd num e1 = 1).
  { apply coprime_sym. unfold num. replace (s * (n2 * e1)) with (s * n2 * e1) by ring. rewrite Z.gcd_add_mult_diag_r.
    apply coprime_mul; [|exact E12]. apply coprime_sym. apply (coprime_div2 n1 d1); [exact G1|apply Z.divide_refl|exists g; lia]. }
  assert (C2 : Z.gcd num e2 = 1).
  { apply coprime_sym. unfold num. rewrite Z.add_comm, Z.gcd_add_mult_diag_r.
    assert (R : Z.gcd e2 (n2 * e1) = 1).
    { apply coprime_mul; [|now apply coprime_sym]. apply coprime_sym. apply (coprime_div2 n2 d2); [exact G2|apply Z.divide_refl|exists g; lia]. }
    destruct Hs as [-> | ->]; [now rewrite Z.mul_1_l|]. replace (-1 * (n2 * e1)) with (- (n2 * e1)) by ring. now rewrite Z.gcd_opp_r. }
  assert (C3 : g2 = Z.gcd num d2) by (rewrite E2; symmetry; now apply gcd_strip).
  destruct (gcd_parts num d2) as (N & f & EN & Ef & ENf); [lia|]. rewrite <- C3 in EN, Ef.
  exists N, f. split; [exact EN|]. split; [exact Ef|]. assert (Pf : 0 < f) by nia. split; [exact Pf|]. split.
  - apply coprime_mul; [|exact ENf]. apply coprime_div with num; [exact C1|exists g2; lia].
  - assert (X : n1 * d2 + s * (n2 * d1) = g * num) by (unfold num; rewrite E1; rewrite E2 at 1; ring).
    rewrite X, EN. rewrite E1. rewrite Ef at 1. ring.
Qed.
(** products *)
Lemma mul_core n1 d1 n2 d2 : 0 < d1 -> 0 < d2 -> Z.gcd n1 d1 = 1 -> Z.gcd n2 d2 = 1 ->
  let g1 := Z.gcd n1 d2 in let g2 := Z.gcd n2 d1 in
  0 < g1 /\ 0 < g2 /\ exists a1 b2 a2 b1, n1 = g1 * a1 /\ d2 = g1 * b2 /\ n2 = g2 * a2 /\ d1 = g2 * b1 /\ 0 < b1 /\ 0 < b2 /\
  Z.gcd (a1 * a2) (b1 * b2) = 1.
Proof.
  intros Hd1 Hd2 G1 G2 g1 g2.
  assert (P1 : 0 < g1).
  { unfold g1. pose proof (Z.gcd_nonneg n1 d2). assert (Z.gcd n1 d2 <> 0) by (intros E; apply Z.gcd_eq_0_r in E; lia). lia. }
  assert (P2 : 0 < g2).
  { unfold g2. pose proof (Z.gcd_nonneg n2 d1). assert (Z.gcd n2 d1 <> 0) by (intros E; apply Z.gcd_eq_0_r in E; lia). lia. }
  split; [exact P1|]. split; [exact P2|].
  destruct (gcd_parts n1 d2) as (a1 & b2 & Ea1 & Eb2 & H12); [fold g1; lia|]. fold g1 in Ea1, Eb2. clearbody g1.
  destruct (gcd_parts n2 d1) as (a2 & b1 & Ea2 & Eb1 & H21); [fold g2; lia|]. fold g2 in Ea2, Eb1. clearbody g2.
  exists a1, b2, a2, b1. repeat (split; [first [assumption|nia]|]).
  assert (H11 : Z.gcd a1 b1 = 1) by (apply (coprime_div2 n1 d1); [exact G1|exists g1; lia|exists g2; lia]).
  assert (H22 : Z.gcd a2 b2 = 1) by (apply (coprime_div2 n2 d2); [exact G2|exists g2; lia|exists g1; lia]).
  apply coprime_mul; apply coprime_sym; apply coprime_mul; now apply coprime_sym.
Qed.

(** * Operations of the integer type *)
Section R.
  Variable il : nat.
  Variable md : bool.
  Variable t : ity.
  Variable r : nat.
  Hypothesis Hw : wide il t.
  Hypothesis Hr : 6 * wid t + 1 <= Z.of_nat r.

  Lemma prom : promote il t = t.
  Proof. destruct Hw as [S L]. unfold promote. destruct (Nat.ltb_spec (lg t) il); [lia|reflexivity]. Qed.
  Lemma range z : is_val t z <-> - tmax t - 1 <= z <= tmax t.
  Proof. destruct Hw as [S L]. rewrite signed_range by exact S. rewrite tmin_tmax by exact S. reflexivity. Qed.
  Lemma arith_in z : - tmax t - 1 <= z <= tmax t -> arith t z = Ok z.
  Proof.
    destruct Hw as [S L]. intros H. unfold arith. rewrite S, tmin_tmax by exact S.
    destruct (Z.leb_spec (- tmax t - 1) z), (Z.leb_spec z (tmax t)); try lia; reflexivity.
  Qed.
  Lemma arith_inv z y : arith t z = Ok y -> y = z /\ - tmax t - 1 <= z <= tmax t.
  Proof.
    destruct Hw as [S L]. unfold arith. rewrite S, tmin_tmax by exact S.
    destruct (Z.leb_spec (- tmax t - 1) z), (Z.leb_spec z (tmax t)); cbn [andb]; try discriminate. intros [= <-]. lia.
  Qed.
  Lemma arith_out z : ~ - tmax t - 1 <= z <= tmax t -> arith t z = UB.
  Proof.
    destruct Hw as [S L]. intros H. unfold arith. rewrite S, tmin_tmax by exact S.
    destruct (Z.leb_spec (- tmax t - 1) z), (Z.leb_spec z (tmax t)); try lia; reflexivity.
  Qed.
  Lemma gcd_in a b : Z.abs a <= tmax t -> Z.abs b <= tmax t -> gcd il md t r a b = Ok (Z.gcd a b).
  Proof. destruct Hw as [S L]. intros Ha Hb. now apply gcd_signed. Qed.
  Lemma gcd_inv a b g : is_val t a -> is_val t b -> gcd il md t r a b = Ok g ->
    g = Z.gcd a b /\ Z.abs a <= tmax t /\ Z.abs b <= tmax t.
  Proof.
    destruct Hw as [S L]. intros Ha Hb E. pose proof (tmin_tmax t S). apply range in Ha. apply range in Hb.
    destruct (Z.eq_dec a (tmin t)) as [Ea|Na]; [rewrite Ea, gcd_min in E by assumption; discriminate|].
    assert (Aa : Z.abs a <= tmax t) by lia.
    destruct (Z.eq_dec b (tmin t)) as [Eb|Nb]; [rewrite Eb, gcd_min_r in E by assumption; discriminate|].
    assert (Ab : Z.abs b <= tmax t) by lia. rewrite gcd_in in E by assumption. injection E as <-. auto.
  Qed.
  Lemma cdiv_pos x y k : 0 < y -> x = y * k -> cdiv t x y = Ok k.
  Proof.
    intros P E. unfold cdiv. destruct (Z.eqb_spec y 0); [lia|]. destruct (Z.eqb_spec y (-1)); [lia|].
    rewrite andb_false_r. cbn [orb]. now rewrite (quot_exact x y k) by (lia || assumption).
  Qed.
  Lemma tpos : 127 <= tmax t. Proof. apply tmax_ge. Qed.

  (** in range after division *)
  Lemma shrink g k x : 0 < g -> x = g * k -> Z.abs k <= Z.abs x.
  Proof. intros P ->. rewrite Z.abs_mul. nia. Qed.

  (** ** + and - *)
  Definition sg (plus : bool) : Z := if plus then 1 else -1.
  Lemma add_shape plus x y : is_rat t x -> is_rat t y ->
    let num_of e1 e2 := fst x * e2 + sg plus * (fst y * e1) in
    exists g e1 e2 g2 N f, g = Z.gcd (snd x) (snd y) /\ snd x = g * e1 /\ snd y = g * e2 /\ 0 < g /\ 0 < e1 /\ 0 < e2 /\
      num_of e1 e2 = g2 * N /\ g2 = Z.gcd (num_of e1 e2) g /\ snd y = g2 * f /\ 0 < g2 /\ 0 < f /\
      Z.gcd N (e1 * f) = 1 /\ N * (snd x * snd y) = (fst x * snd y + sg plus * (fst y * snd x)) * (e1 * f) /\
      forall z, add il md t r plus x y = Ok z <->
        (z = (N, e1 * f) /\ arith t (fst x * e2) = Ok (fst x * e2) /\ arith t (fst y * e1) = Ok (fst y * e1) /\
         Z.abs (num_of e1 e2) <= tmax t /\ e1 * f <= tmax t).
  Proof.
    intros (Vn1 & Vd1 & P1 & G1) (Vn2 & Vd2 & P2 & G2) num_of. apply range in Vn1, Vd1, Vn2, Vd2.
    destruct x as [n1 d1], y as [n2 d2]. cbn [fst snd] in *.
    destruct (sum_core n1 d1 n2 d2 (sg plus)) as (Pg & e1 & e2 & E1 & E2 & Pe1 & Pe2 & Pg2 & N & f & EN & Ef & Pf & C & V); try assumption.
    { destruct plus; [left|right]; reflexivity. }
    exists (Z.gcd d1 d2), e1, e2, (Z.gcd (num_of e1 e2) (Z.gcd d1 d2)), N, f.
    repeat (split; [first [assumption|reflexivity]|]). intros z. unfold add. cbn [fst snd].
    rewrite gcd_in by lia. cbn [bind]. set (g := Z.gcd d1 d2) in *. clearbody g.
    rewrite (cdiv_pos d1 g e1), (cdiv_pos d2 g e2) by assumption. cbn [bind].
    assert (Es : (if plus then n1 * e2 + n2 * e1 else n1 * e2 - n2 * e1) = num_of e1 e2) by (unfold num_of, sg; destruct plus; ring).
    assert (Gd : g <= d1) by nia.
    fold (num_of e1 e2) in EN, Pg2, Ef. set (num := num_of e1 e2) in *. clearbody num. clear num_of.
    split.
    - intros E. destruct (arith t (n1 * e2)) as [u| |] eqn:A1; try discriminate. destruct (arith_inv _ _ A1) as [-> _]. cbn [bind] in E.
      destruct (arith t (n2 * e1)) as [v| |] eqn:A2; try discriminate. destruct (arith_inv _ _ A2) as [-> _]. cbn [bind] in E.
      rewrite Es in E. destruct (arith t num) as [w| |] eqn:A3; try discriminate. destruct (arith_inv _ _ A3) as [-> R3]. cbn [bind] in E.
      destruct (gcd il md t r num g) as [h| |] eqn:A4; try discriminate.
      destruct (gcd_inv _ _ _ (proj2 (range num) R3) (proj2 (range g) ltac:(lia)) A4) as (-> & Rn & _). cbn [bind] in E.
      rewrite (cdiv_pos num _ N), (cdiv_pos d2 _ f) in E by assumption. cbn [bind] in E.
      destruct (arith t (e1 * f)) as [D| |] eqn:A5; try discriminate. destruct (arith_inv _ _ A5) as [-> R5]. cbn [bind] in E.
      injection E as <-. split; [reflexivity|]. split; [reflexivity|]. split; [reflexivity|]. lia.
    - intros (-> & A1 & A2 & Rn & RD). rewrite A1. cbn [bind]. rewrite A2. cbn [bind]. rewrite Es, arith_in by lia. cbn [bind].
      rewrite gcd_in by lia. cbn [bind]. rewrite (cdiv_pos num _ N), (cdiv_pos d2 _ f) by assumption. cbn [bind].
      rewrite arith_in by nia. reflexivity.
  Qed.

  Lemma qv_eq n d q : 0 < d -> (forall m e, q = Qmake m e -> n * Z.pos e = m * d) -> (qv (n, d) == q)%Q.
  Proof. intros P H. destruct q as [m e]. unfold Qeq, qv. cbn [fst snd Qnum Qden]. rewrite Z2Pos.id by exact P. now apply H. Qed.
  Definition qop (plus : bool) (a b : Q) : Q := if plus then (a + b)%Q else (a - b)%Q.

  Lemma add_correct plus x y z : is_rat t x -> is_rat t y -> add il md t r plus x y = Ok z ->
    is_rat t z /\ (qv z == qop plus (qv x) (qv y))%Q.
  Proof.
    intros Hx Hy E. destruct (add_shape plus x y Hx Hy) as (g & e1 & e2 & g2 & N & f & _ & E1 & E2 & Pg & Pe1 & Pe2 & EN & _ & Ef & Pg2 & Pf & C & V & I).
    apply I in E. destruct E as (-> & _ & _ & RN & RD). clear I. destruct Hx as (_ & _ & Px & _), Hy as (_ & _ & Py & _).
    split.
    - unfold is_rat. cbn [fst snd]. pose proof (shrink g2 N _ Pg2 EN). rewrite !range. repeat split; try lia; nia.
    - destruct x as [n1 d1], y as [n2 d2]. cbn [fst snd] in *. apply qv_eq; [nia|].
      assert (K : forall m e, (m # e)%Q = qop plus (qv (n1, d1)) (qv (n2, d2)) -> m = n1 * d2 + sg plus * (n2 * d1) /\ Z.pos e = d1 * d2).
      { intros m e K. unfold qop, qv, Qminus, Qplus, Qopp in K. cbn [fst snd Qnum Qden] in K. unfold sg.
        destruct plus; injection K as -> ->; rewrite Pos2Z.inj_mul, !Z2Pos.id by assumption; split; ring. }
      intros m e K'. destruct (K m e (eq_sym K')) as [-> ->]. exact V.
  Qed.

  Lemma add_defined plus x y b : is_rat t x -> is_rat t y -> within b x -> within b y -> 2 * (b * b) <= tmax t ->
    exists z, add il md t r plus x y = Ok z.
  Proof.
    intros Hx Hy [B1 B2] [B3 B4] Hb. destruct (add_shape plus x y Hx Hy) as (g & e1 & e2 & g2 & N & f & _ & E1 & E2 & Pg & Pe1 & Pe2 & EN & _ & Ef & Pg2 & Pf & C & V & I).
    exists (N, e1 * f). apply I. destruct Hx as (_ & _ & Px & _), Hy as (_ & _ & Py & _).
    destruct x as [n1 d1], y as [n2 d2]. cbn [fst snd] in *.
    assert (L1 : e1 <= b) by nia. assert (L2 : e2 <= b) by nia. assert (L3 : f <= b) by nia.
    assert (M1 : Z.abs (n1 * e2) <= b * b) by (rewrite Z.abs_mul; apply Z.mul_le_mono_nonneg; lia).
    assert (M2 : Z.abs (n2 * e1) <= b * b) by (rewrite Z.abs_mul; apply Z.mul_le_mono_nonneg; lia).
    assert (M3 : e1 * f <= b * b) by (apply Z.mul_le_mono_nonneg; lia).
    repeat split; try (apply arith_in; lia); try lia. unfold sg. destruct plus; lia.
  Qed.

  (** ** * *)
  Lemma mul_shape x y : is_rat t x -> is_rat t y ->
    exists g1 g2 a1 b2 a2 b1, g1 = Z.gcd (fst x) (snd y) /\ g2 = Z.gcd (fst y) (snd x) /\ 0 < g1 /\ 0 < g2 /\
      fst x = g1 * a1 /\ snd y = g1 * b2 /\ fst y = g2 * a2 /\ snd x = g2 * b1 /\ 0 < b1 /\ 0 < b2 /\ Z.gcd (a1 * a2) (b1 * b2) = 1 /\
      forall z, mul il md t r x y = Ok z <->
        (z = (a1 * a2, b1 * b2) /\ Z.abs (fst x) <= tmax t /\ Z.abs (fst y) <= tmax t /\ is_val t (a1 * a2) /\ b1 * b2 <= tmax t).
  Proof.
    intros (Vn1 & Vd1 & P1 & G1) (Vn2 & Vd2 & P2 & G2). assert (Vn1' := Vn1). assert (Vn2' := Vn2). apply range in Vn1', Vn2'. assert (Vd1' := Vd1). assert (Vd2' := Vd2). apply range in Vd1', Vd2'.
    destruct x as [n1 d1], y as [n2 d2]. cbn [fst snd] in *.
    destruct (mul_core n1 d1 n2 d2) as (Pg1 & Pg2 & a1 & b2 & a2 & b1 & E1 & E2 & E3 & E4 & Pb1 & Pb2 & C); try assumption.
    exists (Z.gcd n1 d2), (Z.gcd n2 d1), a1, b2, a2, b1. repeat (split; [first [assumption|reflexivity]|]). intros z. unfold mul. cbn [fst snd].
    rewrite range. split.
    - intros E. destruct (gcd il md t r n1 d2) as [h| |] eqn:A1; try discriminate. destruct (gcd_inv _ _ _ Vn1 Vd2 A1) as (-> & R1 & _). cbn [bind] in E.
      destruct (gcd il md t r n2 d1) as [h| |] eqn:A2; try discriminate. destruct (gcd_inv _ _ _ Vn2 Vd1 A2) as (-> & R2 & _). cbn [bind] in E.
      rewrite (cdiv_pos n1 _ a1), (cdiv_pos n2 _ a2), (cdiv_pos d1 _ b1), (cdiv_pos d2 _ b2) in E by assumption. cbn [bind] in E.
      destruct (arith t (a1 * a2)) as [u| |] eqn:A3; try discriminate. destruct (arith_inv _ _ A3) as [-> R3]. cbn [bind] in E.
      destruct (arith t (b1 * b2)) as [v| |] eqn:A4; try discriminate. destruct (arith_inv _ _ A4) as [-> R4]. cbn [bind] in E.
      injection E as <-. repeat split; lia.
    - intros (-> & R1 & R2 & R3 & R4). rewrite !gcd_in by lia. cbn [bind].
      rewrite (cdiv_pos n1 _ a1), (cdiv_pos n2 _ a2), (cdiv_pos d1 _ b1), (cdiv_pos d2 _ b2) by assumption. cbn [bind].
      rewrite arith_in by lia. cbn [bind]. rewrite arith_in by nia. reflexivity.
  Qed.
  Lemma qmul x y : 0 < snd x -> 0 < snd y -> (qv x * qv y)%Q = qv (fst x * fst y, snd x * snd y).
  Proof.
    intros Px Py. unfold qv, Qmult. cbn [fst snd Qnum Qden]. f_equal.
    destruct (snd x), (snd y); try lia. reflexivity.
  Qed.
  Lemma qv_cross x y : 0 < snd x -> 0 < snd y -> (qv x == qv y)%Q <-> fst x * snd y = fst y * snd x.
  Proof. intros Px Py. unfold Qeq, qv. cbn [Qnum Qden]. now rewrite !Z2Pos.id by assumption. Qed.
  Lemma qv_unique x y : is_rat t x -> is_rat t y -> (qv x == qv y)%Q -> x = y.
  Proof.
    intros (_ & _ & Px & Gx) (_ & _ & Py & Gy) E. apply qv_cross in E; try assumption.
    destruct (lowest_unique _ _ _ _ Px Py Gx Gy E) as [A B]. destruct x, y. cbn [fst snd] in *. now subst.
  Qed.

  Lemma mul_correct x y z : is_rat t x -> is_rat t y -> mul il md t r x y = Ok z ->
    is_rat t z /\ (qv z == qv x * qv y)%Q.
  Proof.
    intros Hx Hy E. destruct (mul_shape x y Hx Hy) as (g1 & g2 & a1 & b2 & a2 & b1 & _ & _ & Pg1 & Pg2 & E1 & E2 & E3 & E4 & Pb1 & Pb2 & C & I).
    apply I in E. destruct E as (-> & _ & _ & RN & RD). clear I. pose proof tpos. destruct Hx as (_ & _ & Px & _), Hy as (_ & _ & Py & _).
    assert (Pb : 0 < b1 * b2) by nia. split.
    - unfold is_rat. cbn [fst snd]. repeat split; try lia; try assumption. apply range. lia.
    - rewrite qmul by assumption. apply qv_cross; cbn [fst snd]; [exact Pb|nia|]. rewrite E1, E2, E3, E4. ring.
  Qed.
  Lemma mul_defined x y z : is_rat t x -> is_rat t y -> Z.abs (fst x) <= tmax t -> Z.abs (fst y) <= tmax t ->
    is_rat t z -> (qv z == qv x * qv y)%Q -> mul il md t r x y = Ok z.
  Proof.
    intros Hx Hy Bx By Hz E. destruct (mul_shape x y Hx Hy) as (g1 & g2 & a1 & b2 & a2 & b1 & _ & _ & Pg1 & Pg2 & E1 & E2 & E3 & E4 & Pb1 & Pb2 & C & I).
    destruct Hx as (_ & _ & Px & _), Hy as (_ & _ & Py & _). assert (Pb : 0 < b1 * b2) by nia. destruct Hz as (Vn & Vd & Pz & Gz).
    assert (QE : Qeq (qv z) (qv (a1 * a2, b1 * b2))).
    { rewrite E, qmul by assumption. apply qv_cross; cbn [fst snd]; [nia|exact Pb|]. rewrite E1, E2, E3, E4. ring. }
    apply qv_cross in QE; [|exact Pz|exact Pb]. destruct (lowest_unique _ _ _ _ Pz Pb Gz C QE) as [A B]. destruct z as [n d]. cbn [fst snd] in *. subst n d.
    apply I. apply range in Vd. repeat split; try assumption; lia.
  Qed.
End R.
