(** Proofs about triangles and colours. *)
From Coq Require Import ZArith QArith Qround Bool Lqa Lia.
From Verif Require Import Base VecModel VecSpec VecProof SphModel SphProof TriModel.
Local Open Scope Q_scope.

(** The triangle (0,0,0), (1,0,0), (0,1,0) and the ray from (1/4,1/4,-1) along the third axis. *)
Lemma triangle_refuted_lemma : exists (v0 v1 v2 o d : vec) (h : hit) (sqrt : Q -> Q),
  vz v0 == 0 /\ vz v1 == 0 /\ vz v2 == 0 /\ unit_vec d /\ (forall x, 0 < sqrt x) /\
  tri_intersect sqrt v0 v1 v2 o d = Ok h /\ does_intersect h = true /\ ~ vz (point h) == 0.
Proof.
  exists (Vec 0 0 0), (Vec 1 0 0), (Vec 0 1 0), (Vec (1 # 4) (1 # 4) (-1)), (Vec 0 0 1).
  eexists. exists (fun _ => 5 # 4). split; [reflexivity|]. split; [reflexivity|]. split; [reflexivity|]. split; [reflexivity|].
  split; [intros _; reflexivity|]. split; [vm_compute; reflexivity|]. split; [reflexivity|]. vm_compute. discriminate.
Qed.

Lemma floor_bounds x : inject_Z (Qfloor x) <= x /\ x < inject_Z (Qfloor x) + 1.
Proof.
  split; [apply Qfloor_le|]. pose proof (Qlt_floor x) as H. rewrite inject_Z_plus in H. exact H.
Qed.

Lemma component_range_lemma mx x : (0 <= mx)%Z -> (0 <= to_component 0 mx x <= mx)%Z.
Proof.
  intros M. unfold to_component. destruct (qlt x 0) eqn:A; [lia|]. destruct (qlt 1 x) eqn:B; [lia|].
  apply qlt_false in A. apply qlt_false in B.
  assert (M' : 0 <= inject_Z mx) by (change 0 with (inject_Z 0); now rewrite <- Zle_Qle).
  split.
  - change 0%Z with (Qfloor 0). apply Qfloor_resp_le. now apply Qmult_le_0_compat.
  - rewrite <- (Qfloor_Z mx) at 2. apply Qfloor_resp_le. rewrite <- (Qmult_1_l (inject_Z mx)) at 2. now apply Qmult_le_compat_r.
Qed.

Lemma component_monotone_lemma mx x y : (0 <= mx)%Z -> x <= y -> (to_component 0 mx x <= to_component 0 mx y)%Z.
Proof.
  intros M L. pose proof (component_range_lemma mx x M) as Rx. pose proof (component_range_lemma mx y M) as Ry.
  revert Rx Ry. unfold to_component.
  destruct (qlt x 0) eqn:A; [lia|]. destruct (qlt y 0) eqn:A'; [exfalso; apply qlt_false in A; apply qlt_true in A'; lra|].
  destruct (qlt 1 y) eqn:B'; [lia|]. destruct (qlt 1 x) eqn:B; [exfalso; apply qlt_true in B; apply qlt_false in B'; lra|].
  intros _ _. apply Qfloor_resp_le. apply Qmult_le_compat_r; [exact L|]. change 0 with (inject_Z 0). now rewrite <- Zle_Qle.
Qed.

Lemma component_value_lemma mn mx x : (0 <= mx)%Z -> 0 <= x -> x <= 1 ->
  inject_Z (to_component mn mx x) <= x * inject_Z mx /\ x * inject_Z mx < inject_Z (to_component mn mx x) + 1.
Proof.
  intros M A B. unfold to_component. replace (qlt x 0) with false by (symmetry; now apply qlt_false).
  replace (qlt 1 x) with false by (symmetry; now apply qlt_false). apply floor_bounds.
Qed.

Lemma component_back_lemma mn mx k : (0 <= k <= mx)%Z -> (0 < mx)%Z -> to_component mn mx (inject_Z k / inject_Z mx) = k.
Proof.
  intros K M. assert (M' : 0 < inject_Z mx) by (change 0 with (inject_Z 0); now rewrite <- Zlt_Qlt).
  assert (A : 0 <= inject_Z k) by (change 0 with (inject_Z 0); rewrite <- Zle_Qle; lia).
  assert (B : inject_Z k <= inject_Z mx) by (rewrite <- Zle_Qle; lia).
  unfold to_component. replace (qlt (inject_Z k / inject_Z mx) 0) with false by (symmetry; apply qlt_false; apply Qle_shift_div_l; lra).
  replace (qlt 1 (inject_Z k / inject_Z mx)) with false by (symmetry; apply qlt_false; apply Qle_shift_div_r; lra).
  rewrite <- (Qfloor_Z k) at 2. apply Qfloor_comp. field. lra.
Qed.

Lemma component_outside_lemma mn mx x : (x < 0 -> to_component mn mx x = mn) /\ (1 < x -> to_component mn mx x = mx).
Proof.
  unfold to_component. split; intros H.
  - now replace (qlt x 0) with true by (symmetry; now apply qlt_true).
  - replace (qlt x 0) with false by (symmetry; apply qlt_false; lra). now replace (qlt 1 x) with true by (symmetry; now apply qlt_true).
Qed.

Lemma triangle_point_lemma sqrt v0 v1 v2 o d h : tri_intersect sqrt v0 v1 v2 o d = Ok h -> does_intersect h = true ->
  exists t, 0 <= t /\ distance h = sqrt (length_sq (scale d t)) /\ same (point h) (add o (scale d (distance h))) /\
    (distance h == t -> orthogonal (sub (point h) v0) (normal h)).
Proof.
  intros E H. unfold tri_intersect, tri_1 in E. destruct (Qeq_bool _ 0) eqn:Z; [discriminate|].
  apply Qeq_bool_neq in Z. set (n := tri_normal sqrt v0 v1 v2) in *. set (t := dot (sub v0 o) n / dot d n) in *.
  injection E as E. subst h. unfold tri_2, tri_3, tri_4, tri_5 in *. cbn [does_intersect distance point normal] in *.
  rewrite H. destruct (Qle_bool 0 t) eqn:T; [|discriminate]. apply Qle_bool_iff in T.
  fold n. unfold length. exists t. set (l := sqrt (length_sq (scale d t))).
  split; [exact T|]. split; [reflexivity|]. split; [repeat split|]. intros L. unfold orthogonal, point_of_intersection.
  rewrite prod_sub, prod_add, add_scale, L. unfold t. rewrite !dot_prod, prod_sub. rewrite dot_prod in Z. field. exact Z.
Qed.

Lemma rgb_lemma mn mx r g b : (0 <= mx)%Z -> 0 <= r <= 1 -> 0 <= g <= 1 -> 0 <= b <= 1 ->
  exists R G B, rgb_f_to_rgb mn mx (r, g, b) = (R, G, B) /\
    (inject_Z R <= r * inject_Z mx < inject_Z R + 1) /\ (inject_Z G <= g * inject_Z mx < inject_Z G + 1) /\
    (inject_Z B <= b * inject_Z mx < inject_Z B + 1).
Proof.
  intros M [R0 R1] [G0 G1] [B0 B1]. do 3 eexists. split; [reflexivity|]. split; [|split]; now apply component_value_lemma.
Qed.

Lemma pos_mul c e x : 0 < c -> e == c * x -> (Qle_bool 0 e = true <-> 0 <= x).
Proof.
  intros C E. rewrite Qle_bool_iff, E. split; intros H.
  - destruct (Qlt_le_dec x 0) as [L|L]; [|exact L]. exfalso. assert (A : 0 < c * - x) by (apply Qmult_lt_0_compat; lra).
    assert (B : c * - x == - (c * x)) by ring. lra.
  - apply Qmult_le_0_compat; lra.
Qed.

Section Flat.
  Variables (sqrt : Q -> Q) (v0 v1 v2 o d : vec).
  Let ax := vx v1 - vx v0.
  Let ay := vy v1 - vy v0.
  Let bx := vx v2 - vx v0.
  Let by_ := vy v2 - vy v0.
  Let k := by_ * ax - bx * ay.
  Let l := sqrt (length_sq (cross (sub v2 v0) (sub v1 v0))).
  Let m := k / l.
  Let n := tri_normal sqrt v0 v1 v2.
  Hypotheses (F1 : vy v1 - vz v1 == vy v0 - vz v0) (F2 : vy v2 - vz v2 == vy v0 - vz v0).
  Hypotheses (K : ~ k == 0) (D : ~ vy d == vz d) (L : 0 < l).

  Lemma flat_normal u : dot u n == m * (vy u - vz u).
  Proof.
    assert (N : vx n == 0 /\ vy n == m /\ vz n == - m).
    { unfold n, tri_normal, normalize. fold l. change (length sqrt (cross (sub v2 v0) (sub v1 v0))) with l.
      unfold normalize_impl, cross, sub. cbn [vx vy vz]. unfold m, k, by_, bx, ax, ay.
      setoid_replace (vz v1) with (vy v1 - (vy v0 - vz v0)) by lra. setoid_replace (vz v2) with (vy v2 - (vy v0 - vz v0)) by lra.
      repeat split; field; lra. }
    destruct N as (A & B & C). unfold dot. rewrite A, B, C. ring.
  Qed.

  Lemma flat_test u w : dot (cross u w) n == 2 * m * (vy u * vx w - vx u * vy w).
  Proof. rewrite flat_normal. unfold cross. cbn [vx vy vz]. ring. Qed.

  Lemma c_pos : 0 < 2 * m * k.
  Proof.
    unfold m. setoid_replace (2 * (k / l) * k) with (2 * (k * k) / l) by (field; lra).
    apply Qlt_shift_div_l; [exact L|]. pose proof (Qsqr_nonneg k) as A.
    assert (~ k * k == 0) by (intros Z; apply Qmult_integral in Z; tauto). lra.
  Qed.

  Lemma m_not0 : ~ m == 0.
  Proof. intros Z. pose proof c_pos as C. rewrite Z in C. lra. Qed.

  (** The point [p] in terms of the sides. *)
  Lemma flat_tests p al be : vx p == vx v0 + (al * ax + be * bx) -> vy p == vy v0 + (al * ay + be * by_) ->
    (within_test sqrt v0 v1 v2 (sub p v0) (sub v1 v0) = true <-> 0 <= be) /\
    (within_test sqrt v0 v1 v2 (sub p v1) (sub v2 v1) = true <-> 0 <= 1 - al - be) /\
    (within_test sqrt v0 v1 v2 (sub p v2) (sub v0 v2) = true <-> 0 <= al).
  Proof.
    intros X Y. unfold within_test. fold n.
    split; [|split]; apply (pos_mul (2 * m * k)); try exact c_pos; rewrite flat_test; unfold sub; cbn [vx vy vz]; rewrite X, Y;
      unfold k, ax, ay, bx, by_; ring.
  Qed.

  Lemma flat_lemma : exists h, tri_intersect sqrt v0 v1 v2 o d = Ok h /\
    (does_intersect h = true <-> exists t al be, 0 <= t /\ 0 <= al /\ 0 <= be /\ al + be <= 1 /\
       same (add o (scale d t)) (add v0 (add (scale (sub v1 v0) al) (scale (sub v2 v0) be)))).
  Proof.
    unfold tri_intersect, tri_1. fold n.
    assert (V : ~ dot d n == 0).
    { rewrite flat_normal. intros Z. apply Qmult_integral in Z. destruct Z as [Z|Z]; [exact (m_not0 Z)|apply D; lra]. }
    destruct (Qeq_bool (dot d n) 0) eqn:E; [apply Qeq_bool_iff in E; contradiction|]. clear E.
    set (t := dot (sub v0 o) n / dot d n).
    assert (T : vy o - vz o + t * (vy d - vz d) == vy v0 - vz v0).
    { unfold t. rewrite !flat_normal. unfold sub. cbn [vx vy vz]. field. split; [intros Z; apply D; lra|exact m_not0]. }
    eexists. split; [reflexivity|]. unfold tri_2, tri_3, tri_4, tri_5. cbn [does_intersect]. rewrite !andb_true_iff, Qle_bool_iff.
    set (p := add o (scale d t)). split.
    - intros [[[H0 H1] H2] H3]. set (wx := vx p - vx v0). set (wy := vy p - vy v0).
      set (al := (by_ * wx - bx * wy) / k). set (be := (wy * ax - wx * ay) / k).
      assert (X : vx p == vx v0 + (al * ax + be * bx)).
      { setoid_replace (al * ax + be * bx) with wx by (unfold al, be, k; field; exact K). unfold wx. ring. }
      assert (Y : vy p == vy v0 + (al * ay + be * by_)).
      { setoid_replace (al * ay + be * by_) with wy by (unfold al, be, k; field; exact K). unfold wy. ring. }
      destruct (flat_tests p al be X Y) as (T1 & T2 & T3). apply T1 in H1. apply T2 in H2. apply T3 in H3.
      exists t, al, be. split; [exact H0|]. split; [exact H3|]. split; [exact H1|]. split; [lra|].
      fold p. clearbody al be. split; [|split].
      + rewrite X. unfold add, scale, sub, ax, bx. cbn [vx vy vz]. ring.
      + rewrite Y. unfold add, scale, sub, ay, by_. cbn [vx vy vz]. ring.
      + assert (Z : vz p == vy p - (vy v0 - vz v0)).
        { unfold p, add, scale. cbn [vx vy vz]. rewrite <- T. ring. }
        rewrite Z, Y. unfold add, scale, sub, ay, by_. cbn [vx vy vz].
        setoid_replace (vz v1) with (vy v1 - (vy v0 - vz v0)) by lra. setoid_replace (vz v2) with (vy v2 - (vy v0 - vz v0)) by lra. ring.
    - intros (s & al & be & S0 & A & B & C & X & Y & Z).
      assert (S : s == t).
      { assert (P : vy o - vz o + s * (vy d - vz d) == vy v0 - vz v0).
        { unfold add, scale, sub in Y, Z. cbn [vx vy vz] in Y, Z.
          setoid_replace (vy o - vz o + s * (vy d - vz d)) with ((vy o + vy d * s) - (vz o + vz d * s)) by ring. rewrite Y, Z.
          setoid_replace (vz v1) with (vy v1 - (vy v0 - vz v0)) by lra. setoid_replace (vz v2) with (vy v2 - (vy v0 - vz v0)) by lra. ring. }
        assert (Q : (s - t) * (vy d - vz d) == 0).
        { setoid_replace ((s - t) * (vy d - vz d)) with ((vy o - vz o + s * (vy d - vz d)) - (vy o - vz o + t * (vy d - vz d))) by ring.
          rewrite P, T. ring. }
        apply Qmult_integral in Q. destruct Q as [Q|Q]; [lra|exfalso; apply D; lra]. }
      assert (X' : vx p == vx v0 + (al * ax + be * bx)).
      { unfold p, add, scale, sub, ax, bx in *. cbn [vx vy vz] in *. rewrite <- S, X. ring. }
      assert (Y' : vy p == vy v0 + (al * ay + be * by_)).
      { unfold p, add, scale, sub, ay, by_ in *. cbn [vx vy vz] in *. rewrite <- S, Y. ring. }
      destruct (flat_tests p al be X' Y') as (T1 & T2 & T3).
      split; [split; [split|]|]; [rewrite <- S; exact S0|apply T1; exact B|apply T2; lra|apply T3; exact A].
  Qed.
End Flat.
