From Coq Require Import List Arith ZArith Bool Lia Znumtheory Zpow_facts.
From Coq Require Import ZifyBool ZifyNat.
From Verif Require Import Base BitModel BitSpec BitProof CharProof RatModel RatProof RatProof2 LcgModel LcgSpec LcgProof.
Open Scope Z_scope.

(** ** geometric sums *)
Fixpoint geo (a : Z) (n : nat) : Z := match n with O => 0 | S n => 1 + a * geo a n end.
Lemma pow_S a n : a ^ Z.of_nat (S n) = a * a ^ Z.of_nat n.
Proof. rewrite Nat2Z.inj_succ, Z.pow_succ_r by lia. reflexivity. Qed.
Lemma geo_pow a n : (a - 1) * geo a n = a ^ Z.of_nat n - 1.
Proof. induction n as [|n IH]; [cbn [geo]; change (a ^ Z.of_nat 0) with 1; lia|]. rewrite pow_S. cbn [geo]. nia. Qed.
Lemma geo_add a n k : geo a (n + k) = geo a n + a ^ Z.of_nat n * geo a k.
Proof. induction n as [|n IH]; [cbn [geo plus]; change (a ^ Z.of_nat 0) with 1; lia|]. rewrite pow_S. cbn [geo plus]. rewrite IH. ring. Qed.
Lemma geo_comb a g b n k : a - 1 = g * b -> b * geo a (n + k) = g * (b * geo a n * (b * geo a k)) + (b * geo a n + b * geo a k).
Proof.
  intros E. rewrite geo_add. replace (a ^ Z.of_nat n) with (1 + g * b * geo a n); [ring|]. rewrite <- E. pose proof (geo_pow a n). lia.
Qed.
Lemma times_closed a c m n : 0 < m -> forall x, residue m x -> times n (lcg a c m) x = (a ^ Z.of_nat n * x + c * geo a n) mod m.
Proof.
  intros M. induction n as [|n IH]; intros x X.
  - cbn [times geo]. change (a ^ Z.of_nat 0) with 1. rewrite Z.mul_0_r, Z.add_0_r, Z.mul_1_l, Z.mod_small by exact X. reflexivity.
  - cbn [times]. rewrite IH by (apply Z.mod_pos_bound, M). unfold lcg. rewrite pow_S. cbn [geo].
    rewrite <- Z.add_mod_idemp_l, Z.mul_mod_idemp_r, Z.add_mod_idemp_l by lia. f_equal.
    pose proof (geo_pow a n) as G. replace (a * geo a n) with (geo a n + (a - 1) * geo a n) by ring. rewrite G. ring.
Qed.
Lemma cong m a b : m <> 0 -> (m | a - b) -> a mod m = b mod m.
Proof. intros M [k E]. replace a with (b + k * m) by lia. apply Z_mod_plus_full. Qed.

Section Mod.
  Variable il : nat.
  Variable t : ity.
  Variable m : Z.
  Hypothesis HM : modulus_ok t m.
  Hypothesis HF : power_of_2 m \/ fits m.
  Hypothesis H1 : 1 < m.
  Let p := promote il t.

  Lemma mo a x : residue m a -> residue m x -> cm_mult il t m a x = Ok ((a * x) mod m).
  Proof. intros. apply mult_ok; try assumption. apply fits_def, HF. Qed.
  Lemma mao a x c : residue m a -> residue m x -> residue m c -> cm_mult_add il t m a x c = Ok ((a * x + c) mod m).
  Proof. intros. apply mult_add_ok; try assumption. apply fits_def, HF. Qed.
  Lemma mr z : residue m (z mod m).
  Proof. apply mod_res with (t := t), HM. Qed.

  Lemma loop_ok a g b : a - 1 = g * b -> residue m g -> forall (r : nat) (e az ak : Z) (n k : nat) (j : nat),
    az = (b * geo a n) mod m -> ak = (b * geo a k) mod m -> 0 <= e < 2 ^ Z.of_nat j -> (j < r)%nat ->
    discard_loop il t m r e g az ak = Ok ((b * geo a (n + k * Z.to_nat e)) mod m).
  Proof.
    intros AE RG. induction r as [|r IH]; intros e az ak n k j Ez Ek E J; [lia|]. cbn [discard_loop].
    destruct (Z.eqb_spec e 0) as [-> | N]; cbn [negb].
    { rewrite Ez. do 3 f_equal. change (Z.to_nat 0) with O. f_equal. lia. }
    destruct j as [|j]; [change (2 ^ Z.of_nat 0) with 1 in E; lia|]. rewrite Nat2Z.inj_succ, Z.pow_succ_r in E by lia.
    assert (C : forall x y i l, x = (b * geo a i) mod m -> y = (b * geo a l) mod m ->
      bind (cm_mult il t m x y) (fun v => bind (cm_add il t m x y) (fun w => cm_mult_add il t m g v w)) = Ok ((b * geo a (i + l)) mod m)).
    { intros x y i l -> ->. rewrite mo by apply mr. cbn [bind]. rewrite add_ok by (exact HM || apply mr). cbn [bind].
      rewrite mao by (assumption || apply mr). f_equal. rewrite (geo_comb a g b i l AE).
      rewrite <- Z.mul_mod by lia. rewrite <- (Z.add_mod (b * geo a i)) by lia.
      rewrite Z.add_mod_idemp_r by lia. rewrite <- Z.add_mod_idemp_l, Z.mul_mod_idemp_r, Z.add_mod_idemp_l by lia. reflexivity. }
    pose proof (Z.div_mod e 2 ltac:(lia)) as De. pose proof (Z.mod_pos_bound e 2 ltac:(lia)) as Be.
    assert (Eh : 0 <= e / 2 < 2 ^ Z.of_nat j) by lia.
    assert (D : forall x i, x = (b * geo a i) mod m ->
      bind (cm_mult il t m ak ak) (fun v => bind (cm_add il t m ak ak) (fun w => bind (cm_mult_add il t m g v w) (fun ak => discard_loop il t m r (e / 2) g x ak)))
      = Ok ((b * geo a (i + (k + k) * Z.to_nat (e / 2))) mod m)).
    { intros x i Ex. specialize (C ak ak k k Ek Ek).
      destruct (cm_mult il t m ak ak) as [v| |]; cbn [bind] in *; try discriminate.
      destruct (cm_add il t m ak ak) as [w| |]; cbn [bind] in *; try discriminate.
      rewrite C. cbn [bind]. apply (IH _ _ _ _ _ j); try assumption; try reflexivity; lia. }
    destruct (Z.eqb_spec (e mod 2) 1) as [O|O].
    - rewrite (C az ak n k Ez Ek). cbn [bind]. rewrite (D _ (n + k)%nat eq_refl). do 4 f_equal.
      assert (T : Z.to_nat e = (2 * Z.to_nat (e / 2) + 1)%nat) by (clear - De O Eh; lia). rewrite T. ring.
    - cbn [bind]. rewrite (D _ n Ez). do 4 f_equal. assert (T : Z.to_nat e = (2 * Z.to_nat (e / 2))%nat) by (clear - De O Be Eh; lia). rewrite T. ring.
  Qed.

  Lemma wrap_ok v : power_of_2 m -> residue m v ->
    bind (bind (arith p (-1)) (fun v => Ok (conv t v))) (fun w => cm_mult il t m v w) = Ok ((- v) mod m).
  Proof.
    unfold residue. intros P V. pose proof (m_half t m HM P) as [Mh Md]. pose proof (Mmax t m HM). pose proof (wid_ge t) as W. pose proof (half_pos t).
    assert (E : exists w, bind (arith p (-1)) (fun v => Ok (conv t v)) = Ok w /\ conv (uns t) w = 2 ^ wid t - 1).
    { assert (K : forall y, y mod 2 ^ wid t = 2 ^ wid t - 1 -> conv (uns t) (conv t y) = 2 ^ wid t - 1).
      { intros y Y. rewrite conv_conv by (rewrite wid_uns; lia). change (conv (uns t) y) with (y mod 2 ^ wid t). exact Y. }
      assert (N1 : (-1) mod 2 ^ wid t = 2 ^ wid t - 1) by (symmetry; apply (Z.mod_unique _ _ (-1)); pose proof (wid_half t); lia).
      assert (PW : wid t <= wid p) by apply promote_wid. unfold arith. destruct (sgn p) eqn:S.
      - assert (T : (tmin p <=? -1) && (-1 <=? tmax p) = true).
        { unfold tmin, tmax. rewrite S. pose proof (half_pos p). lia. }
        rewrite T. cbn [bind]. eexists. split; [reflexivity|]. apply K, N1.
      - cbn [bind]. eexists. split; [reflexivity|]. apply K. rewrite <- N1.
        unfold conv. rewrite S. cbn [andb]. symmetry. apply Zmod_div_mod.
        + apply pow_pos. lia.
        + apply pow_pos. lia.
        + exists (2 ^ (wid p - wid t)). rewrite <- Z.pow_add_r by lia. f_equal. lia. }
    destruct E as (w & E & Ew). rewrite E. cbn [bind]. unfold cm_mult.
    assert (PB : pow2 m = true). { destruct (pow2 m) eqn:B; [reflexivity|]. apply pow2_false in B. tauto. }
    rewrite PB, Ew, (conv_uns t) by lia. destruct (uar il t m HM (v * (2 ^ wid t - 1)) P) as (y & Ey & Y & _).
    { rewrite wid2, (wid_half t). nia. }
    rewrite Ey. cbn [bind]. rewrite mask_mod, Y by exact P. rewrite (res_conv t m HM). f_equal.
    destruct Md as [k Ek]. replace (v * (2 ^ wid t - 1)) with (- v + (v * k) * m) by (rewrite Ek; ring). apply Z_mod_plus_full.
  Qed.

  Lemma discard_lemma r a c z x : 2 <= a < m -> residue m c -> residue m x -> 0 <= z < 2 ^ 64 -> (65 <= r)%nat -> discard_def m a c z ->
    discard il t m a c r z x = Ok (times (Z.to_nat z) (lcg a c m) x).
  Proof.
    intros A C X Zr R D. pose proof (Mmax t m HM) as MM. unfold discard. fold p.
    rewrite (times_closed a c m _ ltac:(lia) x X). rewrite Z2Nat.id by lia.
    assert (Ab : arith p (a - 1) = Ok (a - 1)) by (apply arith_pos; lia). rewrite Ab. cbn [bind].
    rewrite (conv_id t (a - 1)) by (apply pos_val; lia).
    destruct (invert_ok il t m HM (a - 1) r H1 ltac:(unfold residue; lia) ltac:(lia)) as (i & Ei & Ri & Di).
    destruct (Z.eqb_spec (a - 1) 0); [lia|]. rewrite Ei. cbn [bind]. rewrite mo by (unfold residue in *; lia || assumption). cbn [bind].
    set (g := Z.gcd (a - 1) m) in *.
    assert (G1 : 1 <= g) by (pose proof (Z.gcd_nonneg (a - 1) m); assert (g <> 0) by (intros K; apply Z.gcd_eq_0_l in K; lia); unfold g in *; lia).
    assert (Gd : (g | a - 1)) by apply Z.gcd_divide_l. assert (Gl : g <= a - 1) by (apply Z.divide_pos_le; [lia|exact Gd]).
    assert (Eg : ((a - 1) * i) mod m = g). { rewrite <- (Z.mod_small g m) by lia. apply cong; [lia|]. rewrite Z.mul_comm. exact Di. }
    rewrite Eg. assert (Rc := C). unfold residue in C, X.
    destruct (Z.eqb_spec g 1) as [E1|E1].
    - rewrite (pow_ok il t m HM) by (assumption || (unfold residue; lia)). cbn [bind]. rewrite mo by assumption. cbn [bind].
      assert (Y : forall q, q mod m = (c * geo a (Z.to_nat z)) mod m ->
        cm_mult_add il t m (a ^ z mod m) x (q mod m) = Ok ((a ^ z * x + c * geo a (Z.to_nat z)) mod m)).
      { intros q Q. rewrite mao by (assumption || apply mr || (unfold residue; lia)). f_equal.
        rewrite Q, Z.add_mod_idemp_r by lia. rewrite <- Z.add_mod_idemp_l, Z.mul_mod_idemp_l, Z.add_mod_idemp_l by lia. reflexivity. }
      assert (Q : (c * i * (a ^ z - 1)) mod m = (c * geo a (Z.to_nat z)) mod m).
      { pose proof (geo_pow a (Z.to_nat z)) as GP. rewrite Z2Nat.id in GP by lia. rewrite <- GP.
        replace (c * i * ((a - 1) * geo a (Z.to_nat z))) with (c * ((a - 1) * i) * geo a (Z.to_nat z)) by ring.
        rewrite <- Z.mul_mod_idemp_l by lia. rewrite <- (Z.mul_mod_idemp_r c) by lia. rewrite Eg, E1, Z.mul_1_r.
        rewrite Z.mul_mod_idemp_l by lia. reflexivity. }
      pose proof (mr (a ^ z)) as Rz. unfold residue in Rz.
      destruct (Z.eq_dec (a ^ z mod m) 0) as [E0|E0].
      + assert (S : (forall v, residue m v -> bind (bind (arith p (-1)) (fun v => Ok (conv t v))) (fun w => cm_mult il t m v w) = Ok ((- v) mod m)) \/ c = 0).
        { destruct D as [->|[_ D]]; [now right|left]. destruct (D E1) as [P|]; [|lia]. intros v V. apply wrap_ok; assumption. }
        destruct S as [S | ->].
        * rewrite E0. change (0 - 1) with (-1). specialize (S ((c * i) mod m) (mr _)).
          destruct (bind (arith p (-1)) _) as [w| |]; cbn [bind] in *; try discriminate. rewrite S. cbn [bind]. rewrite <- E0. apply Y.
          rewrite <- Q. replace (c * i * (a ^ z - 1)) with (c * i * a ^ z + - (c * i)) by ring.
          apply cong; [lia|]. pose proof (Z.div_mod (a ^ z) m ltac:(lia)) as D2. rewrite E0, Z.add_0_r in D2. exists (c * i / m - c * i * (a ^ z / m)).
          rewrite (Z.mod_eq (c * i) m) by (clear - H1; lia). rewrite D2 at 1. ring.
        * rewrite Z.mul_0_l, Z.mod_0_l by lia. rewrite E0. change (0 - 1) with (-1).
          assert (exists w, bind (arith p (-1)) (fun v => Ok (conv t v)) = Ok w) as [w Ew].
          { unfold arith. destruct (sgn p) eqn:S; [|cbn [bind]; eauto].
            assert (T : (tmin p <=? -1) && (-1 <=? tmax p) = true) by (unfold tmin, tmax; rewrite S; pose proof (half_pos p); lia).
            rewrite T. cbn [bind]. eauto. }
          rewrite Ew. cbn [bind].
          assert (Ez : cm_mult il t m 0 w = Ok (0 mod m)).
          { unfold cm_mult. destruct (pow2 m) eqn:P; [|reflexivity]. apply pow2_true in P; [|lia].
            change (conv (uns t) 0) with (0 mod 2 ^ wid t). rewrite Z.mod_0_l by (pose proof (wid_ge t); pose proof (pow_pos (wid t)); lia).
            rewrite Z.mul_0_l. destruct (uar il t m HM 0 P) as (y & Ey & Yy & _). { split; [reflexivity|]. apply pow_pos. pose proof (wid_ge t) as W. clear - W. lia. }
            rewrite Ey. cbn [bind]. rewrite mask_mod, Yy by exact P. now rewrite (res_conv t m HM). }
          rewrite Ez. cbn [bind]. rewrite <- E0 at 1. apply Y. reflexivity.
      + fold p. rewrite (ex_ok il t) by lia. cbn [bind]. rewrite mo by (try apply mr; unfold residue; lia). cbn [bind]. apply Y.
        rewrite <- Q. rewrite Z.mul_mod_idemp_l by lia. rewrite <- Z.mul_mod_idemp_r by lia.
        rewrite <- (Z.mul_mod_idemp_r (c * i) (a ^ z - 1)) by lia. do 2 f_equal. rewrite Zminus_mod_idemp_l. reflexivity.
    - assert (Cd : cdiv (promote il t) (a - 1) g = Ok ((a - 1) / g)) by (apply (cd il t); clear - A MM G1; lia).
      unfold p. rewrite Cd. cbn [bind]. destruct Gd as [b Eb].
      assert (Db : (a - 1) / g = b) by (rewrite Eb; apply Z.div_mul; lia). rewrite Db in *. assert (Bp : 1 <= b) by (clear - Eb A G1; nia).
      assert (Bl : b <= a - 1) by (clear - Eb Bp G1; nia). assert (Rb : residue m b) by (unfold residue; lia).
      rewrite (conv_id t b) by (apply pos_val; clear - Bp Bl A MM; lia).
      rewrite (loop_ok a g b ltac:(lia) ltac:(unfold residue; lia) r z 0 b 0 1 64) by
        (try (cbn [geo]; rewrite ?Z.mul_0_r, ?Z.add_0_r, ?Z.mul_1_r; rewrite Z.mod_small by lia; reflexivity); lia).
      cbn [bind]. replace (0 + 1 * Z.to_nat z)%nat with (Z.to_nat z) by lia.
      rewrite mao by (try apply mr; unfold residue; lia). cbn [bind].
      destruct (invert_ok il t m HM b r H1 Rb ltac:(lia)) as (q & Eq & Rq & Dq). destruct (Z.eqb_spec b 0); [lia|].
      rewrite Eq. cbn [bind]. rewrite mo by (assumption || apply mr). cbn [bind]. rewrite mo by (assumption || apply mr). cbn [bind].
      rewrite mao by (try apply mr; assumption). f_equal.
      pose proof (geo_pow a (Z.to_nat z)) as GP. rewrite Z2Nat.id in GP by lia.
      assert (U : (g * ((b * geo a (Z.to_nat z)) mod m) + 1) mod m = a ^ z mod m).
      { rewrite <- Z.add_mod_idemp_l, Z.mul_mod_idemp_r, Z.add_mod_idemp_l by lia. f_equal. rewrite Z.mul_assoc, (Z.mul_comm g b), <- Eb. lia. }
      rewrite U. rewrite <- Z.add_mod_idemp_l, Z.mul_mod_idemp_l, Z.add_mod_idemp_l by lia.
      rewrite Z.add_mod_idemp_r by lia.
      rewrite <- (Z.add_mod_idemp_r _ (q * _)) by lia. rewrite <- (Z.add_mod_idemp_r _ (c * geo a _)) by lia. do 2 f_equal.
      rewrite Z.mul_mod_idemp_r by lia. rewrite <- Z.mul_mod_idemp_r, Z.mul_mod_idemp_r by lia.
      destruct D as [-> | [D _]]; [now rewrite !Z.mul_0_l, Z.mul_0_r|].
      rewrite <- (Z.mul_mod_idemp_r q), (Z.mul_mod_idemp_r c), (Z.mul_mod_idemp_r q) by lia.
      replace (q * (c * (b * geo a (Z.to_nat z)))) with (q * b * (c * geo a (Z.to_nat z))) by ring.
      change (Z.gcd ((a - 1) / g) m = 1) in D. rewrite Db in D. rewrite D in Dq. rewrite <- Z.mul_mod_idemp_l by lia. rewrite (cong m (q * b) 1) by (lia || assumption).
      rewrite Z.mul_mod_idemp_l, Z.mul_1_l by lia. reflexivity.
  Qed.
End Mod.
