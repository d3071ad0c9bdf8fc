(** Proofs about rays and planes. *)
From Coq Require Import ZArith QArith Bool Lqa.
From Verif Require Import VecModel VecSpec VecProof SphModel SphProof PlnModel.
Local Open Scope Q_scope.

Lemma plane_does a val f o d : does_intersect (plane_intersect a val f o d) =
  if qlt val (coord a o) then qlt (coord a d) 0 else qlt 0 (coord a d).
Proof.
  unfold plane_intersect, plane_1, plane_2, plane_3, plane_4, plane_5. cbn [does_intersect].
  destruct (qlt val (coord a o)); cbn [Z.ltb Z.compare andb orb]; now rewrite ?orb_false_r.
Qed.

Lemma plane_hits_lemma a val f o d : ~ coord a o == val ->
  does_intersect (plane_intersect a val f o d) = true <-> exists s, 0 < s /\ coord a o + s * coord a d == val.
Proof.
  intros N. rewrite plane_does. set (p := coord a o) in *. set (e := coord a d).
  assert (W : ~ e == 0 -> p + (val - p) / e * e == val) by (intros; field; assumption).
  destruct (qlt val p) eqn:Q; [apply qlt_true in Q|apply qlt_false in Q]; rewrite qlt_true; split.
  - intros H. exists ((val - p) / e). split; [|apply W; lra].
    setoid_replace ((val - p) / e) with ((p - val) / - e) by (field; lra). apply Qlt_shift_div_l; lra.
  - intros (s & S & E). destruct (Qlt_le_dec e 0) as [L|L]; [exact L|]. exfalso. pose proof (Qmult_le_0_compat s e) as M. lra.
  - intros H. exists ((val - p) / e). split; [|apply W; lra].
    assert (p < val) by (apply Qle_lteq in Q; destruct Q as [Q|Q]; [exact Q|contradiction]). apply Qlt_shift_div_l; lra.
  - intros (s & S & E). destruct (Qlt_le_dec 0 e) as [L|L]; [exact L|]. exfalso. pose proof (Qmult_le_0_compat s (- e)) as M.
    assert (A : s * - e == - (s * e)) by ring. apply N. lra.
Qed.

Lemma coord_point a o d s : coord a (add o (scale d s)) == coord a o + s * coord a d.
Proof. destruct a; unfold coord, add, scale; cbn [vx vy vz]; ring. Qed.

Lemma plane_point_lemma a val f o d : let h := plane_intersect a val f o d in does_intersect h = true ->
  0 <= distance h /\ same (point h) (add o (scale d (distance h))) /\ coord a (point h) == val /\
  unit_vec (normal h) /\ prod (normal h) d < 0 /\ forall v, coord a v == 0 -> orthogonal (normal h) v.
Proof.
  intros h H. pose proof H as H'. unfold h in H'. rewrite plane_does in H'.
  assert (Eh : h = Hit true ((coord a o - val) / - coord a d) (add o (scale d ((coord a o - val) / - coord a d))) (normal h) (is_from_inside h)).
  { revert H. unfold h, plane_intersect, plane_1, plane_2, plane_3, plane_4, plane_5. cbn [does_intersect normal is_from_inside].
    intros ->. reflexivity. }
  set (dist := (coord a o - val) / - coord a d) in *.
  assert (D : ~ coord a d == 0) by (destruct (qlt val (coord a o)); apply qlt_true in H'; lra).
  assert (E1 : distance h = dist) by (rewrite Eh; reflexivity). assert (E2 : point h = add o (scale d dist)) by (rewrite Eh; reflexivity).
  rewrite E1, E2. split; [|split; [repeat split; reflexivity|split]].
  - unfold dist. destruct (qlt val (coord a o)) eqn:Q; [apply qlt_true in Q|apply qlt_false in Q]; apply qlt_true in H'.
    + apply Qle_shift_div_l; lra.
    + setoid_replace ((coord a o - val) / - coord a d) with ((val - coord a o) / coord a d) by (field; exact D). apply Qle_shift_div_l; lra.
  - rewrite coord_point. unfold dist. field. exact D.
  - assert (N : normal h = let u := if qlt val (coord a o) then 1 else -1 in match a with AX => Vec u 0 0 | AY => Vec 0 u 0 | AZ => Vec 0 0 u end).
    { unfold h, plane_intersect, plane_1, plane_2, plane_3, plane_4, plane_5. cbn [normal]. destruct (qlt val (coord a o)); reflexivity. }
    rewrite N. clear - H'. destruct (qlt val (coord a o)); apply qlt_true in H'; unfold unit_vec, prod, orthogonal, prod; destruct a; cbn [coord vx vy vz] in *;
      (split; [reflexivity|]); (split; [lra|]); intros v Hv; rewrite Hv; ring.
Qed.

Lemma plane_start_refuted_lemma : exists a val f o d,
  does_intersect (plane_intersect a val f o d) = true /\ does_intersect (plane_intersect a val f o (negate d)) = false /\ coord a o == val.
Proof. exists AX, 0, FaceBoth, (Vec 0 0 0), (Vec 1 0 0). vm_compute. auto. Qed.

Lemma plane_inside_lemma a val o d : let inside f d := is_from_inside (plane_intersect a val f o d) in
  inside FaceBoth d = false /\ (inside FacePositive d = true <-> coord a d < 0) /\ inside FaceNegative d = inside FacePositive (negate d) /\
  (0 < val -> inside FaceSame d = inside FacePositive d) /\ (val < 0 -> inside FaceSame d = inside FaceNegative d) /\
  (val == 0 -> inside FaceSame d = inside FaceBoth d).
Proof.
  cbn zeta. unfold plane_intersect, plane_1, plane_2, plane_3, plane_4, plane_5. cbn [is_from_inside].
  split; [reflexivity|]. split; [apply qlt_true|]. split.
  - apply eq_true_iff_eq. rewrite !qlt_true. destruct a; cbn [coord negate vx vy vz]; lra.
  - split; [|split]; intros H.
    + replace (qlt 0 val) with true by (symmetry; now apply qlt_true). replace (qlt val 0) with false by (symmetry; apply qlt_false; lra).
      cbn [andb]. now rewrite orb_false_r.
    + replace (qlt 0 val) with false by (symmetry; apply qlt_false; lra). replace (qlt val 0) with true by (symmetry; now apply qlt_true). reflexivity.
    + replace (qlt 0 val) with false by (symmetry; apply qlt_false; lra). replace (qlt val 0) with false by (symmetry; apply qlt_false; lra). reflexivity.
Qed.
