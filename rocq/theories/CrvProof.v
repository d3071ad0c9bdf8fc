(** Proofs about Bezier curves and Catmull-Rom splines. *)
From Coq Require Import List ZArith QArith Qabs Lia Lqa.
From Verif Require Import CrvModel CrvSpec.
Import ListNotations.
Local Open Scope Q_scope.

Ltac nums := change (inject_Z 1) with 1; change (inject_Z 2) with 2; change (inject_Z 3) with 3; change (inject_Z 4) with 4;
  change (inject_Z 5) with 5; change (inject_Z 6) with 6; change (inject_Z 10) with 10; change (inject_Z (-3)) with (-3).

Lemma bezier_2_ok t a b c : bezier_2 Q Qplus Qminus Qmult inject_Z t a b c ==
  (1 - t) * ((1 - t) * a + t * b) + t * ((1 - t) * b + t * c).
Proof. unfold bezier_2, pow2. nums. ring. Qed.

Lemma bezier_3_ok t a b c d : bezier_3 Q Qplus Qminus Qmult inject_Z t a b c d ==
  (1 - t) * bezier_2 Q Qplus Qminus Qmult inject_Z t a b c + t * bezier_2 Q Qplus Qminus Qmult inject_Z t b c d.
Proof. unfold bezier_3, bezier_2, pow2, pow3. nums. ring. Qed.

Lemma bezier_4_ok t a b c d e : bezier_4 Q Qplus Qminus Qmult inject_Z t a b c d e ==
  (1 - t) * bezier_3 Q Qplus Qminus Qmult inject_Z t a b c d + t * bezier_3 Q Qplus Qminus Qmult inject_Z t b c d e.
Proof. unfold bezier_4, bezier_3, pow2, pow3, pow4. nums. ring. Qed.

Lemma bezier_5_ok t a b c d e f : bezier_5 Q Qplus Qminus Qmult inject_Z t a b c d e f ==
  (1 - t) * bezier_4 Q Qplus Qminus Qmult inject_Z t a b c d e + t * bezier_4 Q Qplus Qminus Qmult inject_Z t b c d e f.
Proof. unfold bezier_5, bezier_4, pow2, pow3, pow4, pow5. nums. ring. Qed.

Lemma take_points {A} k (p : list A) : (k < length p)%nat -> exists x l, p = x :: l /\ (k <= length l)%nat.
Proof. destruct p as [|x l]; cbn [length]; [lia|]. intros H. exists x, l. split; [reflexivity|lia]. Qed.

Ltac take L := apply take_points in L; destruct L as ([? ?] & ? & -> & L).

Lemma bezier_n_casteljau n t p : (2 <= n <= 5)%nat -> (n < length p)%nat ->
  exists r, qbezier_n n t p = Some r /\ same_point r (casteljau n t p).
Proof.
  intros H L. unfold qbezier_n, same_point.
  destruct n as [|[|[|[|[|[|n]]]]]]; try (exfalso; lia); clear H.
  - do 3 take L. cbn [bezier_n]. eexists. split; [reflexivity|].
    cbn [casteljau betweens hd]. unfold between. cbn [fst snd]. split; apply bezier_2_ok.
  - do 4 take L. cbn [bezier_n]. eexists. split; [reflexivity|].
    cbn [casteljau betweens hd]. unfold between. cbn [fst snd]. split; rewrite bezier_3_ok, !bezier_2_ok; reflexivity.
  - do 5 take L. cbn [bezier_n]. eexists. split; [reflexivity|].
    cbn [casteljau betweens hd]. unfold between. cbn [fst snd]. split; rewrite bezier_4_ok, !bezier_3_ok, !bezier_2_ok; reflexivity.
  - do 6 take L. cbn [bezier_n]. eexists. split; [reflexivity|].
    cbn [casteljau betweens hd]. unfold between. cbn [fst snd]. split; rewrite bezier_5_ok, !bezier_4_ok, !bezier_3_ok, !bezier_2_ok; reflexivity.
Qed.

Lemma bezier_casteljau_lemma t p : (3 <= length p <= 6)%nat ->
  exists r, qbezier t p = Some r /\ same_point r (casteljau (length p - 1) t p).
Proof. intros H. apply bezier_n_casteljau; lia. Qed.

(** *** ends *)
Lemma betweens_length t l : length (betweens t l) = (length l - 1)%nat.
Proof.
  induction l as [|p l IH]; [reflexivity|]. destruct l as [|q l]; [reflexivity|].
  change (betweens t (p :: q :: l)) with (between t p q :: betweens t (q :: l)).
  change (length (between t p q :: betweens t (q :: l))) with (S (length (betweens t (q :: l)))). rewrite IH. cbn [length]. lia.
Qed.

Lemma betweens_nth t d : forall l i, (S i < length l)%nat -> nth i (betweens t l) d = between t (nth i l d) (nth (S i) l d).
Proof.
  induction l as [|p l IH]; intros i H; [cbn [length] in H; lia|]. destruct l as [|q l]; [cbn [length] in H; lia|].
  change (betweens t (p :: q :: l)) with (between t p q :: betweens t (q :: l)). destruct i as [|i]; [reflexivity|].
  cbn [nth]. rewrite IH by (cbn [length] in *; lia). reflexivity.
Qed.

Lemma same_refl p : same_point p p.
Proof. now split. Qed.
Lemma same_trans p q r : same_point p q -> same_point q r -> same_point p r.
Proof. intros [A B] [C D]. split; [now rewrite A|now rewrite B]. Qed.

Lemma casteljau_0 d : forall n l, (n < length l)%nat -> same_point (casteljau n 0 l) (nth 0 l d).
Proof.
  induction n as [|n IH]; intros l H; cbn [casteljau].
  - destruct l; [cbn [length] in H; lia|]. apply same_refl.
  - eapply same_trans; [apply IH; rewrite betweens_length; lia|]. rewrite betweens_nth by lia.
    unfold between. split; cbn [fst snd]; ring.
Qed.

Lemma casteljau_1 d : forall n l, (n < length l)%nat -> same_point (casteljau n 1 l) (nth n l d).
Proof.
  induction n as [|n IH]; intros l H; cbn [casteljau].
  - destruct l; [cbn [length] in H; lia|]. apply same_refl.
  - eapply same_trans; [apply IH; rewrite betweens_length; lia|]. rewrite betweens_nth by lia.
    unfold between. split; cbn [fst snd]; ring.
Qed.

Lemma bezier_ends_lemma p d : (3 <= length p <= 6)%nat ->
  (exists r, qbezier 0 p = Some r /\ same_point r (nth 0 p d)) /\
  (exists r, qbezier 1 p = Some r /\ same_point r (nth (length p - 1) p d)).
Proof.
  intros H. split.
  - destruct (bezier_casteljau_lemma 0 p H) as (r & E & S). exists r. split; [exact E|].
    eapply same_trans; [exact S|]. apply casteljau_0. lia.
  - destruct (bezier_casteljau_lemma 1 p H) as (r & E & S). exists r. split; [exact E|].
    eapply same_trans; [exact S|]. apply casteljau_1. lia.
Qed.

(** *** convex hull *)
Lemma between_side a b c t p q : 0 <= t -> t <= 1 -> a * fst p + b * snd p <= c -> a * fst q + b * snd q <= c ->
  a * fst (between t p q) + b * snd (between t p q) <= c.
Proof.
  intros H0 H1 Hp Hq. unfold between. cbn [fst snd]. set (u := a * fst p + b * snd p) in *. set (v := a * fst q + b * snd q) in *.
  setoid_replace (a * ((1 - t) * fst p + t * fst q) + b * ((1 - t) * snd p + t * snd q)) with ((1 - t) * u + t * v) by (unfold u, v; ring).
  assert (A : (1 - t) * u <= (1 - t) * c) by (rewrite !(Qmult_comm (1 - t)); apply Qmult_le_compat_r; lra).
  assert (B : t * v <= t * c) by (rewrite !(Qmult_comm t); apply Qmult_le_compat_r; lra). lra.
Qed.

Lemma betweens_side a b c t : 0 <= t -> t <= 1 -> forall l, Forall (fun p => a * fst p + b * snd p <= c) l ->
  Forall (fun p => a * fst p + b * snd p <= c) (betweens t l).
Proof.
  intros H0 H1. induction l as [|p l IH]; intros F; [constructor|]. inversion F as [|? ? Fp Fl]; subst. destruct l as [|q l]; [constructor|].
  change (betweens t (p :: q :: l)) with (between t p q :: betweens t (q :: l)). constructor; [|now apply IH].
  inversion Fl; subst. now apply between_side.
Qed.

Lemma casteljau_side a b c t : 0 <= t -> t <= 1 -> forall n l, (n < length l)%nat -> Forall (fun p => a * fst p + b * snd p <= c) l ->
  a * fst (casteljau n t l) + b * snd (casteljau n t l) <= c.
Proof.
  intros H0 H1. induction n as [|n IH]; intros l L F; cbn [casteljau].
  - destruct l; [cbn [length] in L; lia|]. now inversion F.
  - apply IH; [rewrite betweens_length; lia|now apply betweens_side].
Qed.

Lemma bezier_hull_lemma t p : (3 <= length p <= 6)%nat -> 0 <= t -> t <= 1 ->
  exists r, qbezier t p = Some r /\
    forall a b c, Forall (fun q => a * fst q + b * snd q <= c) p -> a * fst r + b * snd r <= c.
Proof.
  intros H H0 H1. destruct (bezier_casteljau_lemma t p H) as (r & E & S1 & S2). exists r. split; [exact E|].
  intros a b c F. rewrite S1, S2. apply casteljau_side; [exact H0|exact H1|lia|exact F].
Qed.

(** *** splines *)
Lemma slope_cubic (f : Q -> Q) t d A B : (forall h, f (t + h) - f t - d * h == h * h * (A + B * h)) -> has_slope f t d.
Proof.
  intros H. exists (Qabs A + Qabs B). intros h Hh. rewrite H, Qabs_Qmult.
  assert (P : 0 <= h * h) by (destruct (Qlt_le_dec h 0); [setoid_replace (h * h) with ((- h) * (- h)) by ring; apply Qmult_le_0_compat; lra|now apply Qmult_le_0_compat]).
  rewrite (Qabs_pos (h * h)) by exact P. rewrite (Qmult_comm (h * h)). apply Qmult_le_compat_r; [|exact P].
  eapply Qle_trans; [apply Qabs_triangle|]. rewrite Qabs_Qmult.
  assert (M : Qabs B * Qabs h <= Qabs B).
  { rewrite <- (Qmult_1_r (Qabs B)) at 2. rewrite !(Qmult_comm (Qabs B)). apply Qmult_le_compat_r; [exact Hh|apply Qabs_nonneg]. }
  lra.
Qed.

Ltac spl := cbn [fst snd]; unfold spline_coord, spline_start_coord, spline_end_coord, pow2, pow3, qhalf; nums.

Lemma spline_lemma p0 p1 p2 p3 :
  same_point (qspline 0 p0 p1 p2 p3) p1 /\ same_point (qspline 1 p0 p1 p2 p3) p2 /\
  has_tangent (fun t => qspline t p0 p1 p2 p3) 0 (half_way p0 p2) /\
  has_tangent (fun t => qspline t p0 p1 p2 p3) 1 (half_way p1 p3).
Proof.
  unfold qspline, catmull_rom_spline. split; [split; spl; field|]. split; [split; spl; field|]. split.
  - split; unfold half_way; cbn [fst snd].
    + apply (slope_cubic _ _ _ ((1 # 2) * (2 * fst p0 - 5 * fst p1 + 4 * fst p2 - fst p3)) ((1 # 2) * (- fst p0 + 3 * fst p1 - 3 * fst p2 + fst p3))).
      intros h. spl. field.
    + apply (slope_cubic _ _ _ ((1 # 2) * (2 * snd p0 - 5 * snd p1 + 4 * snd p2 - snd p3)) ((1 # 2) * (- snd p0 + 3 * snd p1 - 3 * snd p2 + snd p3))).
      intros h. spl. field.
  - split; unfold half_way; cbn [fst snd].
    + apply (slope_cubic _ _ _ ((1 # 2) * (2 * fst p0 - 5 * fst p1 + 4 * fst p2 - fst p3) + (3 # 2) * (- fst p0 + 3 * fst p1 - 3 * fst p2 + fst p3)) ((1 # 2) * (- fst p0 + 3 * fst p1 - 3 * fst p2 + fst p3))).
      intros h. spl. field.
    + apply (slope_cubic _ _ _ ((1 # 2) * (2 * snd p0 - 5 * snd p1 + 4 * snd p2 - snd p3) + (3 # 2) * (- snd p0 + 3 * snd p1 - 3 * snd p2 + snd p3)) ((1 # 2) * (- snd p0 + 3 * snd p1 - 3 * snd p2 + snd p3))).
      intros h. spl. field.
Qed.

Lemma spline_start_lemma p0 p1 p2 :
  same_point (qspline_start 0 p0 p1 p2) p0 /\ same_point (qspline_start 1 p0 p1 p2) p1 /\
  has_tangent (fun t => qspline_start t p0 p1 p2) 1 (half_way p0 p2).
Proof.
  unfold qspline_start, catmull_rom_spline_start. split; [split; spl; field|]. split; [split; spl; field|].
  split; unfold half_way; cbn [fst snd].
  - apply (slope_cubic _ _ _ ((1 # 2) * (fst p0 - 2 * fst p1 + fst p2)) 0). intros h. spl. field.
  - apply (slope_cubic _ _ _ ((1 # 2) * (snd p0 - 2 * snd p1 + snd p2)) 0). intros h. spl. field.
Qed.

Lemma spline_end_lemma p0 p1 p2 :
  same_point (qspline_end 0 p0 p1 p2) p1 /\ same_point (qspline_end 1 p0 p1 p2) p2 /\
  has_tangent (fun t => qspline_end t p0 p1 p2) 0 (half_way p0 p2).
Proof.
  unfold qspline_end, catmull_rom_spline_end. split; [split; spl; field|]. split; [split; spl; field|].
  split; unfold half_way; cbn [fst snd].
  - apply (slope_cubic _ _ _ ((1 # 2) * (fst p0 - 2 * fst p1 + fst p2)) 0). intros h. spl. field.
  - apply (slope_cubic _ _ _ ((1 # 2) * (snd p0 - 2 * snd p1 + snd p2)) 0). intros h. spl. field.
Qed.

Lemma zspline_refuted : exists p0 p1 p2 p3 : Z * Z, zspline 1 p0 p1 p2 p3 <> p2.
Proof. exists (1, 0)%Z, (0, 0)%Z, (0, 0)%Z, (0, 0)%Z. vm_compute. discriminate. Qed.
