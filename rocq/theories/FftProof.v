(** Complex exponentials, sums, and the decimation identities behind the transforms of FftModel. *)
From Coq Require Import List Bool Arith Lia Reals Lra.
From Verif Require Import Base CqModel FftModel FftSpec.
Import ListNotations.
Local Open Scope R_scope.

Notation C := (cplx R).
Definition czero : C := Cx 0 0.
Definition cone : C := Cx 1 0.
Definition cadd (a b : C) : C := Cx (re a + re b) (im a + im b).
Definition csub (a b : C) : C := Cx (re a - re b) (im a - im b).
Definition cmul (a b : C) : C := Cx (re a * re b - im a * im b) (re a * im b + im a * re b).
Definition cneg (a : C) : C := Cx (- re a) (- im a).

Lemma c_add_eq a b : c_add Rops a b = cadd a b. Proof. reflexivity. Qed.
Lemma c_sub_eq a b : c_sub Rops a b = csub a b. Proof. reflexivity. Qed.
Lemma c_mul_eq a b : c_mul Rops a b = cmul a b. Proof. reflexivity. Qed.

Lemma cx_eq (a b : C) : re a = re b -> im a = im b -> a = b.
Proof. destruct a, b; cbn; intros; subst; reflexivity. Qed.

Lemma C_ring : ring_theory czero cone cadd cmul csub cneg (@eq C).
Proof.
  constructor; intros; apply cx_eq; cbn [re im czero cone cadd cmul csub cneg]; ring.
Qed.
Add Ring C_ring : C_ring.

(** ** sums *)
Fixpoint csum (n : nat) (f : nat -> C) : C :=
  match n with
  | O => czero
  | S n' => cadd (csum n' f) (f n')
  end.

Lemma csum_ext n f g : (forall i, (i < n)%nat -> f i = g i) -> csum n f = csum n g.
Proof.
  induction n as [|n IH]; intros H; cbn [csum]; [reflexivity|].
  rewrite IH by (intros; apply H; lia). rewrite H by lia. reflexivity.
Qed.

Lemma csum_mul_r n f c : csum n (fun i => cmul (f i) c) = cmul (csum n f) c.
Proof. induction n as [|n IH]; cbn [csum]; [|rewrite IH]; ring. Qed.

Lemma csum_add n f g : csum n (fun i => cadd (f i) (g i)) = cadd (csum n f) (csum n g).
Proof. induction n as [|n IH]; cbn [csum]; [|rewrite IH]; ring. Qed.

Lemma csum_double n f :
  csum (2 * n) f = cadd (csum n (fun v => f (2 * v)%nat)) (csum n (fun v => f (2 * v + 1)%nat)).
Proof.
  induction n as [|n IH]; [rewrite Nat.mul_0_r; cbn [csum]; ring|].
  replace (2 * S n)%nat with (S (S (2 * n))) by lia.
  cbn [csum]. rewrite IH. replace (S (2 * n)) with (2 * n + 1)%nat by lia. ring.
Qed.

Lemma csum_split n m f :
  csum (n + m) f = cadd (csum n f) (csum m (fun v => f (n + v)%nat)).
Proof.
  induction m as [|m IH]; [rewrite Nat.add_0_r; cbn [csum]; ring|].
  rewrite Nat.add_succ_r. cbn [csum]. rewrite IH. ring.
Qed.

Lemma csum_zero n f : (forall i, (i < n)%nat -> f i = czero) -> csum n f = czero.
Proof.
  induction n as [|n IH]; intros H; cbn [csum]; [reflexivity|].
  rewrite IH by (intros; apply H; lia). rewrite H by lia. ring.
Qed.

Lemma csum_swap n m (f : nat -> nat -> C) :
  csum n (fun i => csum m (fun j => f i j)) = csum m (fun j => csum n (fun i => f i j)).
Proof.
  induction n as [|n IH]; cbn [csum].
  - symmetry. apply csum_zero. reflexivity.
  - rewrite IH, csum_add. reflexivity.
Qed.

Lemma csum_one n k f :
  (k < n)%nat -> (forall i, (i < n)%nat -> i <> k -> f i = czero) -> csum n f = f k.
Proof.
  induction n as [|n IH]; intros Hk H; [lia|]. cbn [csum].
  destruct (Nat.eq_dec k n) as [->|Hn].
  - rewrite csum_zero by (intros; apply H; lia). ring.
  - rewrite IH by (try lia; intros; apply H; lia). rewrite (H n) by lia. ring.
Qed.

Lemma csum_re n f : re (csum n f) = rsum n (fun i => re (f i)).
Proof. induction n as [|n IH]; cbn [csum rsum re czero cadd]; [|rewrite IH]; reflexivity. Qed.
Lemma csum_im n f : im (csum n f) = rsum n (fun i => im (f i)).
Proof. induction n as [|n IH]; cbn [csum rsum im czero cadd]; [|rewrite IH]; reflexivity. Qed.

Lemma rsum_ext n f g : (forall i, (i < n)%nat -> f i = g i) -> rsum n f = rsum n g.
Proof.
  induction n as [|n IH]; intros H; cbn [rsum]; [reflexivity|].
  rewrite IH by (intros; apply H; lia). rewrite H by lia. reflexivity.
Qed.

(** ** complex exponentials *)
Definition cis (x : R) : C := Cx (cos x) (sin x).

Lemma cis_add x y : cis (x + y) = cmul (cis x) (cis y).
Proof.
  apply cx_eq; cbn [re im cis cmul]; [apply cos_plus|]. rewrite sin_plus. ring.
Qed.
Lemma cis_0 : cis 0 = cone.
Proof. apply cx_eq; cbn [re im cis cone]; [apply cos_0|apply sin_0]. Qed.

Lemma cis_turns k : cis (2 * PI * INR k) = cone.
Proof.
  replace (2 * PI * INR k) with (0 + 2 * INR k * PI) by ring.
  apply cx_eq; cbn [re im cis cone]; [rewrite cos_period; apply cos_0|rewrite sin_period; apply sin_0].
Qed.

(** e^(s 2 pi i e / n); s is 1 or -1 *)
Definition W (s : R) (n e : nat) : C := cis (s * (2 * PI * INR e / INR n)).

Lemma W_add s n a b : W s n (a + b) = cmul (W s n a) (W s n b).
Proof.
  unfold W. rewrite <- cis_add, plus_INR. f_equal. unfold Rdiv. ring.
Qed.
Lemma W_0 s n : W s n 0 = cone.
Proof.
  unfold W. cbn [INR]. replace (s * (2 * PI * 0 / INR n)) with 0 by (unfold Rdiv; ring).
  apply cis_0.
Qed.

Definition unit (s : R) := s = 1 \/ s = -1.

Lemma cis_turns_s s k : unit s -> cis (s * (2 * PI * INR k)) = cone.
Proof.
  intros [->| ->].
  - rewrite Rmult_1_l. apply cis_turns.
  - replace (-1 * (2 * PI * INR k)) with (- (2 * PI * INR k)) by ring.
    pose proof (cis_turns k) as H. unfold cis, cone in *. injection H as H1 H2.
    rewrite cos_neg, sin_neg, H1, H2. f_equal. ring.
Qed.

Lemma INR_pos n : (0 < n)%nat -> INR n <> 0.
Proof. intros H. apply not_0_INR. lia. Qed.

Lemma W_turns s n k : unit s -> (0 < n)%nat -> W s n (n * k) = cone.
Proof.
  intros Hs Hn. unfold W. rewrite mult_INR.
  replace (2 * PI * (INR n * INR k) / INR n) with (2 * PI * INR k)
    by (field; apply INR_pos; exact Hn).
  apply cis_turns_s, Hs.
Qed.

Lemma W_half s h : unit s -> (0 < h)%nat -> W s (2 * h) h = cneg cone.
Proof.
  intros Hs Hh. unfold W. rewrite mult_INR.
  replace (2 * PI * INR h / (INR 2 * INR h)) with PI
    by (cbn [INR]; field; apply INR_pos; exact Hh).
  destruct Hs as [->| ->].
  - rewrite Rmult_1_l. apply cx_eq; cbn [re im cis cneg cone]; [rewrite cos_PI|rewrite sin_PI]; ring.
  - replace (-1 * PI) with (- PI) by ring.
    apply cx_eq; cbn [re im cis cneg cone]; [rewrite cos_neg, cos_PI|rewrite sin_neg, sin_PI]; ring.
Qed.

Definition ci : C := Cx 0 1.
Lemma W_quarter h : (0 < h)%nat -> W (-1) (4 * h) h = cneg ci.
Proof.
  intros Hh. unfold W. rewrite mult_INR.
  replace (-1 * (2 * PI * INR h / (INR 4 * INR h))) with (- (PI / 2))
    by (cbn [INR]; field; apply INR_pos; exact Hh).
  apply cx_eq; cbn [re im cis cneg ci]; [rewrite cos_neg, cos_PI2|rewrite sin_neg, sin_PI2]; ring.
Qed.

Lemma W_scale s c n e : (0 < c)%nat -> (0 < n)%nat -> W s (c * n) (c * e) = W s n e.
Proof.
  intros Hc Hn. unfold W. f_equal. rewrite !mult_INR. field.
  split; apply INR_pos; assumption.
Qed.

(** ** the transform as a sum *)
Definition ft (s : R) (n : nat) (X : nat -> C) (k : nat) : C :=
  csum n (fun j => cmul (X j) (W s n (j * k))).

Definition at_ (x : list C) (j : nat) : C := nth j x czero.

Lemma ft_minus n x k : ft (-1) n (at_ x) k = dft_at n x k.
Proof.
  unfold ft, dft_at. apply cx_eq; cbn [re im]; [rewrite csum_re|rewrite csum_im];
    apply rsum_ext; intros j Hj; unfold W, at_re, at_im, at_, czero, angle;
    replace (-1 * (2 * PI * INR (j * k) / INR n)) with (- (2 * PI * INR (j * k) / INR n)) by ring;
    cbn [re im cmul cis]; rewrite cos_neg, sin_neg; ring.
Qed.
Lemma ft_plus n x k : ft 1 n (at_ x) k = dft_plus_at n x k.
Proof.
  unfold ft, dft_plus_at. apply cx_eq; cbn [re im]; [rewrite csum_re|rewrite csum_im];
    apply rsum_ext; intros j Hj; unfold W, at_re, at_im, at_, czero, angle;
    rewrite Rmult_1_l; cbn [re im cmul cis]; ring.
Qed.

Lemma pow2_pos p : (0 < 2 ^ p)%nat.
Proof. apply Nat.neq_0_lt_0, Nat.pow_nonzero. lia. Qed.

(** ** decimation in frequency: the partial transform over 2^l elements a stride apart *)
Section Dif.
  Variable X : nat -> C.
  Variable p : nat.
  Local Notation n := (2 ^ p)%nat.

  Definition D (l r t : nat) : C :=
    csum (2 ^ l) (fun u => cmul (X (t + u * 2 ^ (p - l))) (W (-1) n ((t + u * 2 ^ (p - l)) * r))).

  Lemma D_0 t : D 0 0 t = X t.
  Proof.
    unfold D. cbn [Nat.pow csum]. rewrite Nat.mul_0_r, W_0, Nat.mul_0_l, Nat.add_0_r. ring.
  Qed.

  Lemma D_all k : D p k 0 = ft (-1) n X k.
  Proof.
    unfold D, ft. apply csum_ext. intros u Hu.
    rewrite Nat.sub_diag. cbn [Nat.pow]. rewrite Nat.mul_1_r, Nat.add_0_l. reflexivity.
  Qed.

  Lemma D_low l r t : (S l <= p)%nat ->
    D (S l) r t = cadd (D l r t) (D l r (t + 2 ^ (p - S l))).
  Proof.
    intros Hl. unfold D at 1. cbn [Nat.pow]. rewrite csum_double.
    assert (Hq : (2 ^ (p - l) = 2 * 2 ^ (p - S l))%nat)
      by (replace (p - l)%nat with (S (p - S l)) by lia; reflexivity).
    unfold D. rewrite Hq. f_equal; apply csum_ext; intros u Hu; f_equal;
      [ f_equal; ring | f_equal; f_equal; ring | f_equal; ring | f_equal; f_equal; ring ].
  Qed.

  Lemma D_shift l r t : (l <= p)%nat ->
    csum (2 ^ l) (fun u => cmul (X (t + u * 2 ^ (p - l)))
                                (W (-1) n ((t + u * 2 ^ (p - l)) * (r + 2 ^ l))))
    = cmul (D l r t) (W (-1) n (t * 2 ^ l)).
  Proof.
    intros Hl. unfold D. rewrite <- csum_mul_r. apply csum_ext. intros u Hu.
    replace ((t + u * 2 ^ (p - l)) * (r + 2 ^ l))%nat
      with ((t + u * 2 ^ (p - l)) * r + t * 2 ^ l + n * u)%nat.
    - rewrite !W_add, W_turns; [|right; reflexivity|apply pow2_pos]. ring.
    - assert (H : (2 ^ p = 2 ^ (p - l) * 2 ^ l)%nat)
        by (rewrite <- Nat.pow_add_r; f_equal; lia).
      rewrite H. ring.
  Qed.

  Lemma D_high l r t : (S l <= p)%nat ->
    D (S l) (r + 2 ^ l) t
    = cmul (csub (D l r t) (D l r (t + 2 ^ (p - S l)))) (W (-1) n (t * 2 ^ l)).
  Proof.
    intros Hl. unfold D at 1. cbn [Nat.pow]. rewrite csum_double.
    assert (Hq : (2 ^ (p - l) = 2 * 2 ^ (p - S l))%nat)
      by (replace (p - l)%nat with (S (p - S l)) by lia; reflexivity).
    transitivity (cadd (cmul (D l r t) (W (-1) n (t * 2 ^ l)))
                    (cmul (D l r (t + 2 ^ (p - S l))) (W (-1) n ((t + 2 ^ (p - S l)) * 2 ^ l)))).
    - rewrite <- !D_shift by lia. rewrite Hq.
      f_equal; apply csum_ext; intros u Hu; f_equal;
        [ f_equal; ring | f_equal; f_equal; ring | f_equal; ring | f_equal; f_equal; ring ].
    - replace ((t + 2 ^ (p - S l)) * 2 ^ l)%nat with (t * 2 ^ l + 2 ^ (p - 1))%nat.
      + rewrite W_add.
        replace (W (-1) n (2 ^ (p - 1))) with (cneg cone); [ring|].
        replace n with (2 * 2 ^ (p - 1))%nat
          by (rewrite <- Nat.pow_succ_r'; f_equal; lia).
        symmetry. apply W_half; [right; reflexivity|apply pow2_pos].
      + replace (2 ^ (p - 1))%nat with (2 ^ (p - S l) * 2 ^ l)%nat
          by (rewrite <- Nat.pow_add_r; f_equal; lia).
        ring.
  Qed.

  (** the L-shaped butterfly *)
  Lemma D_l1 l r t : (S (S l) <= p)%nat ->
    D (S (S l)) (r + 2 ^ l) t
    = cmul (cadd (csub (D l r t) (D l r (t + 2 ^ (p - S l))))
                 (cmul ci (csub (D l r (t + 2 ^ (p - S (S l)) + 2 ^ (p - S l)))
                                (D l r (t + 2 ^ (p - S (S l)))))))
           (W (-1) n (t * 2 ^ l)).
  Proof.
    intros Hl. rewrite D_low, !D_high by lia.
    replace ((t + 2 ^ (p - S (S l))) * 2 ^ l)%nat with (t * 2 ^ l + 2 ^ (p - 2))%nat.
    - rewrite W_add. replace (W (-1) n (2 ^ (p - 2))) with (cneg ci); [ring|].
      replace n with (4 * 2 ^ (p - 2))%nat
        by (change 4%nat with (2 * (2 * 1))%nat; rewrite <- !Nat.mul_assoc, Nat.mul_1_l,
              <- !Nat.pow_succ_r'; f_equal; lia).
      symmetry. apply W_quarter, pow2_pos.
    - replace (2 ^ (p - 2))%nat with (2 ^ (p - S (S l)) * 2 ^ l)%nat
        by (rewrite <- Nat.pow_add_r; f_equal; lia).
      ring.
  Qed.

  Lemma D_l3 l r t : (S (S l) <= p)%nat ->
    D (S (S l)) (r + 3 * 2 ^ l) t
    = cmul (csub (csub (D l r t) (D l r (t + 2 ^ (p - S l))))
                 (cmul ci (csub (D l r (t + 2 ^ (p - S (S l)) + 2 ^ (p - S l)))
                                (D l r (t + 2 ^ (p - S (S l)))))))
           (W (-1) n (3 * (t * 2 ^ l))).
  Proof.
    intros Hl. replace (r + 3 * 2 ^ l)%nat with (r + 2 ^ l + 2 ^ S l)%nat
      by (cbn [Nat.pow]; ring).
    rewrite D_high, !D_high by lia.
    replace ((t + 2 ^ (p - S (S l))) * 2 ^ l)%nat with (t * 2 ^ l + 2 ^ (p - 2))%nat.
    - replace (3 * (t * 2 ^ l))%nat with (t * 2 ^ l + t * 2 ^ S l)%nat by (cbn [Nat.pow]; ring).
      rewrite !W_add. replace (W (-1) n (2 ^ (p - 2))) with (cneg ci); [ring|].
      replace n with (4 * 2 ^ (p - 2))%nat
        by (change 4%nat with (2 * (2 * 1))%nat; rewrite <- !Nat.mul_assoc, Nat.mul_1_l,
              <- !Nat.pow_succ_r'; f_equal; lia).
      symmetry. apply W_quarter, pow2_pos.
    - replace (2 ^ (p - 2))%nat with (2 ^ (p - S (S l)) * 2 ^ l)%nat
        by (rewrite <- Nat.pow_add_r; f_equal; lia).
      ring.
  Qed.
End Dif.
