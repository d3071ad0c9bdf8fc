(** Proofs about rays and spheres. *)
From Coq Require Import ZArith QArith Bool Lqa.
From Verif Require Import VecModel VecSpec VecProof SphModel SphSpec.
Local Open Scope Q_scope.

Lemma qlt_true x y : qlt x y = true <-> x < y.
Proof.
  unfold qlt. rewrite negb_true_iff. split.
  - intros H. apply Qnot_le_lt. intros L. apply Qle_bool_iff in L. congruence.
  - intros H. destruct (Qle_bool y x) eqn:E; [|reflexivity]. apply Qle_bool_iff in E. exfalso. lra.
Qed.
Lemma qlt_false x y : qlt x y = false <-> y <= x.
Proof. unfold qlt. rewrite negb_false_iff. apply Qle_bool_iff. Qed.

Section Sphere.
  Variables (sqrt : Q -> Q) (pos : vec) (rad : Q) (o d : vec).
  Hypotheses (U : unit_vec d) (R : 0 < rad).

  Let v := sub o pos.
  Let b := - dot v d.
  Let det_sq := b * b - length_sq v + rad * rad.

  Lemma dist_form s : dist_sq pos o d s == (s - b) * (s - b) - det_sq + rad * rad.
  Proof.
    unfold det_sq, b, v. unfold unit_vec, prod in U. unfold dist_sq, dot, length_sq, sub. cbn [vx vy vz].
    setoid_replace ((vx o + s * vx d - vx pos) * (vx o + s * vx d - vx pos) + (vy o + s * vy d - vy pos) * (vy o + s * vy d - vy pos) +
      (vz o + s * vz d - vz pos) * (vz o + s * vz d - vz pos)) with
      ((vx o - vx pos) * (vx o - vx pos) + (vy o - vy pos) * (vy o - vy pos) + (vz o - vz pos) * (vz o - vz pos)
       + 2 * s * ((vx o - vx pos) * vx d + (vy o - vy pos) * vy d + (vz o - vz pos) * vz d)
       + s * s * (vx d * vx d + vy d * vy d + vz d * vz d)) by ring.
    rewrite U. ring.
  Qed.

  Hypothesis E : 0 < det_sq -> root_of (sqrt det_sq) det_sq.

  Lemma hits_lemma : does_intersect (intersect sqrt pos rad o d) = true <-> exists s, 0 < s /\ dist_sq pos o d s < rad * rad.
  Proof.
    unfold intersect, intersect_1, intersect_2, intersect_3, intersect_4, intersect_5, intersect_6. cbn [does_intersect].
    fold v. fold b. fold det_sq. destruct (qlt 0 det_sq) eqn:D; cbn [zweitens].
    - apply qlt_true in D. destruct (E D) as [P S]. set (r := sqrt det_sq) in *. unfold zweitens_1. cbn [fst snd]. rewrite qlt_true. split.
      + intros H. assert (r0 : 0 < r) by nra. destruct (Qlt_le_dec 0 (b - r)) as [L|L].
        * exists b. split; [lra|]. rewrite dist_form. nra.
        * exists ((1 # 2) * (b + r)). split; [lra|]. rewrite dist_form. nra.
      + intros (s & H0 & H). rewrite dist_form in H. assert (K : (s - b) * (s - b) < r * r) by lra.
        destruct (Qlt_le_dec 0 (b + r)) as [L|L]; [exact L|]. exfalso. assert (A : 0 < s - b - r) by lra. assert (B : 0 < s - b + r) by lra.
        pose proof (Qmult_lt_0_compat _ _ A B) as C. clear - C K. lra.
    - apply qlt_false in D. cbn [fst snd]. split; [discriminate|]. intros (s & H0 & H). rewrite dist_form in H. exfalso. pose proof (Qsqr_nonneg (s - b)) as A. lra.
  Qed.

  Lemma hit_form : does_intersect (intersect sqrt pos rad o d) = true ->
    exists r, 0 < r /\ r * r == det_sq /\ 0 < b + r /\
      let dist := if qlt (b - r) 0 then b + r else b - r in
      let p := add o (scale d dist) in
      let n := normalize sqrt (sub p pos) in
      let inside := qlt 0 (dot n d) in
      intersect sqrt pos rad o d = Hit true dist p (if inside then negate n else n) inside.
  Proof.
    unfold intersect, intersect_1, intersect_2, intersect_3, intersect_4, intersect_5, intersect_6.
    fold v. fold b. fold det_sq. destruct (qlt 0 det_sq) eqn:D; cbn [zweitens]; [|cbn [does_intersect fst snd]; discriminate].
    apply qlt_true in D. destruct (E D) as [P S]. set (r := sqrt det_sq) in *. unfold zweitens_1. cbn [does_intersect fst snd].
    intros H. exists r. rewrite H. pose proof H as H'. apply qlt_true in H'.
    split; [nra|]. split; [exact S|]. split; [exact H'|]. cbn zeta. unfold drittens, drittens_1, point_of_intersection. cbn [fst snd]. reflexivity.
  Qed.

  Lemma first_lemma : let h := intersect sqrt pos rad o d in does_intersect h = true ->
    0 <= distance h /\ same (point h) (add o (scale d (distance h))) /\ dist_sq pos o d (distance h) == rad * rad /\
    forall s, 0 <= s -> s < distance h -> ~ dist_sq pos o d s == rad * rad.
  Proof.
    intros h H. destruct (hit_form H) as (r & r0 & S & L & Eh). cbn zeta in Eh. unfold h. rewrite Eh. cbn [distance point].
    destruct (qlt (b - r) 0) eqn:Q; [apply qlt_true in Q|apply qlt_false in Q]; (split; [lra|]); (split; [repeat split|]); (split; [rewrite dist_form; nra|]);
      intros s H0 H1; rewrite dist_form; intros Z; assert (F : (s - b - r) * (s - b + r) == 0) by (ring_simplify; nra);
      apply Qmult_integral in F; destruct F; lra.
  Qed.

  Hypothesis X : exact_at sqrt (rad * rad).

  Lemma normal_lemma : let h := intersect sqrt pos rad o d in does_intersect h = true ->
    unit_vec (normal h) /\ prod (normal h) d < 0 /\
    same (sub (point h) pos) (scale (normal h) (if is_from_inside h then - rad else rad)) /\
    (is_from_inside h = true <-> dist_sq pos o d 0 < rad * rad).
  Proof.
    intros h H. destruct (hit_form H) as (r & r0 & S & L & Eh). cbn zeta in Eh. unfold h. rewrite Eh. cbn [normal point is_from_inside].
    set (dist := if qlt (b - r) 0 then b + r else b - r) in *. set (w := sub (add o (scale d dist)) pos).
    assert (W : prod w w == rad * rad).
    { transitivity (dist_sq pos o d dist); [unfold w, prod, sub, add, scale, dist_sq; cbn [vx vy vz]; ring|].
      rewrite dist_form. unfold dist. destruct (qlt (b - r) 0); nra. }
    destruct X as [XC [XP XR]].
    assert (Q : sqrt (prod w w) == rad).
    { rewrite (XC _ _ W). assert (F : (sqrt (rad * rad) - rad) * (sqrt (rad * rad) + rad) == 0) by (ring_simplify; nra).
      apply Qmult_integral in F. destruct F; lra. }
    assert (NZ : ~ prod w w == 0) by (rewrite W; nra).
    destruct (normalize_lemma sqrt w) as (N1 & N2 & _); [split; [rewrite Q; lra|rewrite Q, W; reflexivity]|exact NZ|].
    set (n := normalize sqrt w) in *.
    assert (N3 : rad * prod n d == dist - b).
    { rewrite <- Q, <- add_scale. transitivity (prod w d).
      - destruct N2 as (A1 & A2 & A3). unfold prod at 1. rewrite A1, A2, A3. reflexivity.
      - unfold w. rewrite prod_sub, prod_add, add_scale. unfold unit_vec in U. rewrite U. unfold b, v. rewrite dot_prod, prod_sub. ring. }
    assert (N4 : same w (scale n rad)).
    { destruct N2 as (A1 & A2 & A3). unfold scale in *. cbn [vx vy vz] in *. rewrite Q in A1, A2, A3. repeat split; cbn [vx vy vz]; lra. }
    assert (I : qlt 0 (dot n d) = qlt (b - r) 0).
    { rewrite <- (negb_involutive (qlt (b - r) 0)). unfold dist in N3. destruct (qlt (b - r) 0); cbn [negb].
      - apply qlt_true. rewrite dot_prod. nra.
      - apply qlt_false. rewrite dot_prod. nra. }
    rewrite I. unfold dist in N3. destruct (qlt (b - r) 0) eqn:B; [apply qlt_true in B|apply qlt_false in B].
    - split; [unfold unit_vec, prod, negate in *; cbn [vx vy vz]; rewrite <- N1; ring|].
      split; [assert (A : 0 < prod n d) by nra; unfold prod, negate in *; cbn [vx vy vz]; lra|]. split.
      + destruct N4 as (A1 & A2 & A3). unfold scale, negate in *. cbn [vx vy vz] in *. repeat split; cbn [vx vy vz]; lra.
      + split; [|reflexivity]. intros _. rewrite dist_form. nra.
    - split; [exact N1|]. split; [nra|]. split; [exact N4|].
      split; [discriminate|]. rewrite dist_form. intros A. exfalso. nra.
  Qed.
End Sphere.
