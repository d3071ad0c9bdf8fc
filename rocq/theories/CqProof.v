From Coq Require Import List Bool Arith Field Ring QArith Qcanon Lia.
From Verif Require Import CqModel CqSpec.
Import ListNotations.
Close Scope Q_scope.
Close Scope Qc_scope.
Open Scope nat_scope.

Section Laws.
  Context {T : Type} (K : ops T) (inv : T -> T) (OF : ofield K inv).

  Let FT := of_field K inv OF.
  Add Field TF : FT.

  Local Notation "x + y" := (tadd K x y).
  Local Notation "x - y" := (tsub K x y).
  Local Notation "x * y" := (tmul K x y).
  Local Notation "x / y" := (tdiv K x y).
  Local Notation "- x" := (tneg K x).
  Local Notation "0" := (t0 K).
  Local Notation "1" := (t1 K).
  Local Notation "x < y" := (tltb K x y = true).

  Lemma cx_eq : forall (x y : cplx T), re x = re y -> im x = im y -> x = y.
  Proof. intros [a b] [c d]. cbn [re im]. intros -> ->. reflexivity. Qed.

  Lemma qt_eq : forall (p q : quat T), qa p = qa q -> qb p = qb q -> qc p = qc q -> qd p = qd q -> p = q.
  Proof. intros [a b c d] [a' b' c' d']. cbn [qa qb qc qd]. intros -> -> -> ->. reflexivity. Qed.

  (** ** Order *)

  Lemma lt_neg : forall x, x < 0 -> 0 < - x.
  Proof.
    intros x H. pose proof (of_add _ _ OF x 0 (- x) H) as J.
    replace (x + - x) with 0 in J by ring. replace (0 + - x) with (- x) in J by ring. exact J.
  Qed.

  Lemma lt_ne : forall x y, x < y -> x <> y.
  Proof. intros x y H ->. rewrite (of_irrefl _ _ OF) in H. discriminate. Qed.

  Lemma sq_pos : forall x, x <> 0 -> 0 < x * x.
  Proof.
    intros x H. destruct (of_total _ _ OF x 0) as [J|[J|J]]; [|contradiction|exact (of_mul _ _ OF _ _ J J)].
    apply lt_neg in J. replace (x * x) with ((- x) * (- x)) by ring. exact (of_mul _ _ OF _ _ J J).
  Qed.

  Local Notation nonneg := (CqSpec.nonneg K).

  Lemma eq_dec_0 : forall x : T, x = 0 \/ x <> 0.
  Proof. intros x. destruct (of_total _ _ OF x 0) as [J|[J|J]]; [right; exact (lt_ne _ _ J)|left; exact J|right].
    intros ->. exact (lt_ne _ _ J eq_refl). Qed.

  Lemma sq_nonneg : forall x, nonneg (x * x).
  Proof. intros x. destruct (eq_dec_0 x) as [-> |H]; [left; ring | right; exact (sq_pos x H)]. Qed.

  Lemma add_pos_l : forall x y, 0 < x -> nonneg y -> 0 < x + y.
  Proof.
    intros x y H [-> |J]; [replace (x + 0) with x by ring; exact H|].
    pose proof (of_add _ _ OF 0 x y H) as A. replace (0 + y) with y in A by ring. exact (of_trans _ _ OF _ _ _ J A).
  Qed.

  Lemma add_pos_r : forall x y, nonneg x -> 0 < y -> 0 < x + y.
  Proof. intros x y H J. replace (x + y) with (y + x) by ring. apply add_pos_l; assumption. Qed.

  Lemma add_nonneg : forall x y, nonneg x -> nonneg y -> nonneg (x + y).
  Proof. intros x y [-> |H] J; [replace (0 + y) with y by ring; exact J | right; apply add_pos_l; assumption]. Qed.

  Lemma norm2_ne : forall x y, ~ (x = 0 /\ y = 0) -> x * x + y * y <> 0.
  Proof.
    intros x y H E. assert (J : 0 < x * x + y * y).
    { destruct (eq_dec_0 x) as [-> |Hx].
      - apply add_pos_r; [apply sq_nonneg|]. apply sq_pos. intros Hy. apply H. split; [reflexivity|exact Hy].
      - apply add_pos_l; [exact (sq_pos x Hx) | apply sq_nonneg]. }
    rewrite E in J. exact (lt_ne _ _ J eq_refl).
  Qed.

  Lemma norm4_ne : forall a b c d, ~ (a = 0 /\ b = 0 /\ c = 0 /\ d = 0) -> a * a + b * b + c * c + d * d <> 0.
  Proof.
    intros a b c d H E. assert (J : 0 < a * a + b * b + c * c + d * d).
    { destruct (eq_dec_0 d) as [-> |Hd]; [|apply add_pos_r; [repeat apply add_nonneg; apply sq_nonneg | exact (sq_pos d Hd)]].
      apply add_pos_l; [|apply sq_nonneg].
      destruct (eq_dec_0 c) as [-> |Hc]; [|apply add_pos_r; [repeat apply add_nonneg; apply sq_nonneg | exact (sq_pos c Hc)]].
      apply add_pos_l; [|apply sq_nonneg].
      destruct (eq_dec_0 b) as [-> |Hb]; [|apply add_pos_r; [repeat apply add_nonneg; apply sq_nonneg | exact (sq_pos b Hb)]].
      apply add_pos_l; [|apply sq_nonneg]. apply sq_pos. intros ->. apply H. repeat split. }
    rewrite E in J. exact (lt_ne _ _ J eq_refl).
  Qed.

  Lemma abs_nonneg : forall x, nonneg (tabs K x).
  Proof.
    intros x. rewrite (of_abs _ _ OF). destruct (tltb K x 0) eqn:E; [right; apply lt_neg; exact E|].
    destruct (of_total _ _ OF x 0) as [J|[J|J]]; [congruence|left; exact J|right; exact J].
  Qed.

  Lemma abs_0 : forall x, tabs K x = 0 -> x = 0.
  Proof.
    intros x. rewrite (of_abs _ _ OF). destruct (tltb K x 0) eqn:E; [|exact (fun e => e)].
    intros J. apply lt_neg in E. rewrite J in E. destruct (lt_ne _ _ E eq_refl).
  Qed.

  (** no element is above the largest *)
  Lemma max_element_in : forall l m, In (max_element K m l) (m :: l).
  Proof.
    induction l as [|x l IH]; intros m; cbn [max_element]; [left; reflexivity|].
    destruct (tltb K (tabs K m) (tabs K x)).
    - destruct (IH x) as [J|J]; right; [left; exact J | right; exact J].
    - destruct (IH m) as [J|J]; [left; exact J | right; right; exact J].
  Qed.

  Lemma max_element_top : forall l m x, In x (m :: l) -> tltb K (tabs K (max_element K m l)) (tabs K x) = false.
  Proof.
    induction l as [|y l IH]; intros m x I; cbn [max_element].
    - destruct I as [-> |[]]. apply (of_irrefl _ _ OF).
    - destruct (tltb K (tabs K m) (tabs K y)) eqn:E.
      + destruct I as [-> |I]; [|exact (IH y x I)].
        destruct (tltb K (tabs K (max_element K y l)) (tabs K x)) eqn:F; [|reflexivity].
        pose proof (of_trans _ _ OF _ _ _ F E) as G. rewrite (IH y y (or_introl eq_refl)) in G. discriminate.
      + destruct I as [-> |[-> |I]]; [apply IH; left; reflexivity| |apply IH; right; exact I].
        destruct (tltb K (tabs K (max_element K m l)) (tabs K x)) eqn:F; [|reflexivity].
        destruct (of_total _ _ OF (tabs K m) (tabs K x)) as [G|[G|G]]; [congruence| |].
        * rewrite <- G in F. rewrite (IH m m (or_introl eq_refl)) in F. discriminate.
        * pose proof (of_trans _ _ OF _ _ _ F G) as H. rewrite (IH m m (or_introl eq_refl)) in H. discriminate.
  Qed.

  Lemma abs_max_0 : forall m l, abs_max K m l = 0 -> forall x, In x (m :: l) -> x = 0.
  Proof.
    intros m l E x I. pose proof (max_element_top l m x I) as J. unfold abs_max in E. rewrite E in J.
    apply abs_0. destruct (abs_nonneg x) as [A|A]; [exact A | congruence].
  Qed.

  (** ** complex *)

  Definition cnz (z : cplx T) : Prop := ~ (re z = 0 /\ im z = 0).

  Theorem complex_ring :
    ring_theory (cx_t K 0) (cx_t K 1) (c_add K) (c_mul K) (c_sub K) (c_neg K) eq.
  Proof.
    constructor; intros; apply cx_eq; unfold cx_t, c_add, c_mul, c_sub, c_neg; cbn [re im]; ring.
  Qed.

  Theorem complex_mul : forall x y k, k <= 1 -> ccomp (c_mul K x y) k = coef K 2 ctable (ccomp x) (ccomp y) k.
  Proof.
    intros x y k H. destruct k as [|[|k]]; [| |lia];
      cbv [ccomp c_mul coef ctable fold_right seq Nat.eqb re im]; ring.
  Qed.

  Theorem complex_div : forall x y, y <> cx_t K 0 ->
    c_mul K (c_div K x y) y = x /\ c_div K (c_mul K x y) y = x.
  Proof.
    intros [a b] [c d] H.
    assert (N : c * c + d * d <> 0).
    { apply norm2_ne. intros [-> ->]. apply H. reflexivity. }
    split; apply cx_eq; unfold c_mul, c_div, c_divides, complex_norm; cbn [re im]; field; exact N.
  Qed.

  Theorem complex_mixed : forall (x : cplx T) (t : T),
    c_add_t K x t = c_add K x (cx_t K t) /\ t_add_c K t x = c_add K (cx_t K t) x
    /\ c_sub_t K x t = c_sub K x (cx_t K t) /\ t_sub_c K t x = c_sub K (cx_t K t) x
    /\ c_mul_t K x t = c_mul K x (cx_t K t) /\ t_mul_c K t x = c_mul K (cx_t K t) x
    /\ (t <> 0 -> c_div_t K x t = c_div K x (cx_t K t))
    /\ (x <> cx_t K 0 -> t_div_c K t x = c_div K (cx_t K t) x)
    /\ c_eqb_t K x t = c_eqb K x (cx_t K t) /\ (t_eqb_c K t x = true <-> x = cx_t K t).
  Proof.
    intros [a b] t. repeat match goal with |- _ /\ _ => split end;
      try (apply cx_eq; unfold cx_t, c_add_t, t_add_c, c_sub_t, t_sub_c, c_mul_t, t_mul_c, c_add, c_sub, c_mul; cbn [re im]; ring).
    - intros H. apply cx_eq; unfold c_div_t, c_div, c_divides, complex_norm, cx_t; cbn [re im]; field;
        repeat split; try exact H; replace (t * t + 0 * 0) with (t * t) by ring; intros E; apply sq_pos in H;
        rewrite E in H; exact (lt_ne _ _ H eq_refl).
    - intros H. assert (N : a * a + b * b <> 0) by (apply norm2_ne; intros [-> ->]; apply H; reflexivity).
      apply cx_eq; unfold t_div_c, t_divides, c_div, c_divides, complex_norm, cx_t; cbn [re im]; field; exact N.
    - reflexivity.
    - unfold t_eqb_c. cbn [re im]. rewrite andb_true_iff, !(of_eqb _ _ OF). unfold cx_t. split.
      + intros [<- <-]. reflexivity.
      + intros E. injection E as -> ->. split; reflexivity.
  Qed.

  Theorem complex_eq : forall x y, (c_eqb K x y = true <-> x = y) /\ (c_neb K x y = true <-> x <> y).
  Proof.
    intros [a b] [c d]. assert (E : c_eqb K (Cx a b) (Cx c d) = true <-> Cx a b = Cx c d).
    { unfold c_eqb. cbn [re im]. rewrite andb_true_iff, !(of_eqb _ _ OF). split.
      - intros [-> ->]. reflexivity.
      - intros E. injection E as -> ->. split; reflexivity. }
    split; [exact E|]. unfold c_neb. rewrite negb_true_iff, <- not_true_iff_false, E. tauto.
  Qed.

  (** compound assignment, with the object itself or another as argument *)
  Theorem complex_assign : forall z r,
    c_assign z r = zread z r
    /\ c_add_assign K z r = c_add K z (zread z r) /\ c_sub_assign K z r = c_sub K z (zread z r)
    /\ c_mul_assign K z r = c_mul K z (zread z r) /\ c_div_assign K z r = c_div K z (zread z r).
  Proof. intros [a b] [[c d]|]; repeat split; reflexivity. Qed.

  (** += and -= and = of a component too; *= and /= when the argument is another object *)
  Theorem complex_assign_t : forall z r,
    c_assign_t K z r = cx_t K (cval z r)
    /\ c_add_assign_t K z r = c_add_t K z (cval z r) /\ c_sub_assign_t K z r = c_sub_t K z (cval z r)
    /\ (forall t, r = Other t -> c_mul_assign_t K z r = c_mul_t K z t /\ c_div_assign_t K z r = c_div_t K z t).
  Proof.
    intros [a b] r. repeat match goal with |- _ /\ _ => split end; try reflexivity.
    intros t ->. split; reflexivity.
  Qed.

  Theorem complex_assign_alias : forall z,
    c_mul_assign_t K z (Comp 0) = Cx (re z * re z) (im z * (re z * re z))
    /\ c_mul_assign_t K z (Comp 1) = c_mul_t K z (im z)
    /\ (re z <> 0 -> c_div_assign_t K z (Comp 0) = Cx 1 (im z))
    /\ c_div_assign_t K z (Comp 1) = c_div_t K z (im z).
  Proof.
    intros [a b]. repeat match goal with |- _ /\ _ => split end; try reflexivity.
    intros H. cbn [re] in H. apply cx_eq; unfold c_div_assign_t; cbn [cread re im]; field; [exact H|].
    repeat split; try exact H. exact (F_1_neq_0 FT).
  Qed.

  (** conj, perp, norm *)
  Theorem complex_values : forall x y,
    c_conj K (c_add K x y) = c_add K (c_conj K x) (c_conj K y)
    /\ c_conj K (c_mul K x y) = c_mul K (c_conj K x) (c_conj K y)
    /\ c_conj K (c_conj K x) = x
    /\ c_mul K x (c_conj K x) = cx_t K (c_norm K x)
    /\ c_norm K (c_mul K x y) = c_norm K x * c_norm K y
    /\ (c_norm K x = 0 <-> x = cx_t K 0)
    /\ nonneg (c_norm K x)
    /\ c_perp K x = c_mul K (Cx 0 1) x.
  Proof.
    intros [a b] [c d]. repeat match goal with |- _ /\ _ => split end;
      try (apply cx_eq; unfold cx_t, c_conj, c_add, c_mul, c_norm, c_perp; cbn [re im]; ring).
    - unfold c_norm, c_mul. cbn [re im]. ring.
    - split.
      + intros E. unfold c_norm in E. cbn [re im] in E.
        destruct (eq_dec_0 a) as [-> |Ha]; [destruct (eq_dec_0 b) as [-> |Hb]; [reflexivity|]|];
          exfalso; revert E; apply norm2_ne; intros [E1 E2]; contradiction.
      + intros E. injection E as -> ->. unfold c_norm. cbn [re im]. ring.
    - unfold c_norm. cbn [re im]. apply add_nonneg; apply sq_nonneg.
  Qed.

  (** ** quaternion, not floating-point *)

  Lemma hamilton_eq : forall p q, hamilton K p q =
    Qt (qa p * qa q - qb p * qb q - qc p * qc q - qd p * qd q)
       (qa p * qb q + qb p * qa q + qc p * qd q - qd p * qc q)
       (qa p * qc q - qb p * qd q + qc p * qa q + qd p * qb q)
       (qa p * qd q + qb p * qc q - qc p * qb q + qd p * qa q).
  Proof.
    intros p q. apply qt_eq; cbv [hamilton coef qtable qcomp fold_right seq Nat.eqb qa qb qc qd]; ring.
  Qed.

  Theorem quaternion_ops : forall p q,
    q_add K false p q = qzip (tadd K) p q /\ q_sub K false p q = qzip (tsub K) p q
    /\ q_neg K false p = qmap (tneg K) p /\ q_mul K false p q = hamilton K p q
    /\ (q_eqb K p q = true <-> p = q)
    /\ q_unreal K false p = q_sub K false p (qt_t K (q_real p))
    /\ q_of_c (q_c1 p) (q_c2 p) = p.
  Proof.
    intros p q. repeat match goal with |- _ /\ _ => split end; try reflexivity; [|split|..].
    - rewrite hamilton_eq. reflexivity.
    - unfold q_eqb. rewrite !andb_true_iff, !(of_eqb _ _ OF). intros [[[E1 E2] E3] E4]. apply qt_eq; congruence.
    - intros ->. unfold q_eqb. rewrite !andb_true_iff, !(of_eqb _ _ OF). repeat split.
    - apply qt_eq; unfold q_unreal, q_sub, q_make, qt_t, q_real; cbn [qa qb qc qd]; ring.
    - destruct p; reflexivity.
  Qed.

  Theorem quaternion_algebra : forall p q r,
    let mul := q_mul K false in let add := q_add K false in
    mul (mul p q) r = mul p (mul q r)
    /\ mul (add p q) r = add (mul p r) (mul q r) /\ mul r (add p q) = add (mul r p) (mul r q)
    /\ mul (qt_t K 1) p = p /\ mul p (qt_t K 1) = p
    /\ q_conj K false (mul p q) = mul (q_conj K false q) (q_conj K false p)
    /\ mul p (q_conj K false p) = qt_t K (q_norm K false p)
    /\ q_norm K false (mul p q) = q_norm K false p * q_norm K false q
    /\ (q_norm K false p = 0 <-> p = qt_t K 0).
  Proof.
    intros p q r. cbv zeta. repeat match goal with |- _ /\ _ => split end;
      try (apply qt_eq; unfold q_mul, mul_qq_impl, q_add, q_norm, q_conj, q_make, q_real, qt_t, q_mul, mul_qq_impl, q_make; cbn [qa qb qc qd]; ring).
    - unfold q_norm, q_conj, q_mul, mul_qq_impl, q_make, q_real. cbn [qa qb qc qd]. ring.
    - split; [|intros ->; unfold q_norm, q_conj, q_mul, mul_qq_impl, q_make, q_real, qt_t; cbn [qa qb qc qd]; ring].
      intros E. assert (N : qa p * qa p + qb p * qb p + qc p * qc p + qd p * qd p = 0).
      { rewrite <- E. unfold q_norm, q_conj, q_mul, mul_qq_impl, q_make, q_real. cbn [qa qb qc qd]. ring. }
      destruct (eq_dec_0 (qa p)) as [Ha|Ha], (eq_dec_0 (qb p)) as [Hb|Hb], (eq_dec_0 (qc p)) as [Hc|Hc], (eq_dec_0 (qd p)) as [Hd|Hd];
        try (apply qt_eq; assumption); exfalso; revert N; apply norm4_ne; intros (? & ? & ? & ?); contradiction.
  Qed.

  Theorem quaternion_mixed_partial : forall (q : quat T) (t : T) (z : cplx T),
    q_add_t K false q t = q_add K false q (qt_t K t) /\ t_add_q K false t q = q_add K false (qt_t K t) q
    /\ q_add_c K false q z = q_add K false q (qt_c K z) /\ c_add_q K false z q = q_add K false (qt_c K z) q
    /\ q_sub_t K false q t = q_sub K false q (qt_t K t) /\ q_sub_c K false q z = q_sub K false q (qt_c K z)
    /\ q_mul_t K false q t = q_mul K false q (qt_t K t) /\ t_mul_q K false t q = q_mul K false (qt_t K t) q
    /\ (t <> 0 -> q_mul K false (q_div_t K false q t) (qt_t K t) = q)
    /\ (q_eqb_t K q t = true <-> q = qt_t K t) /\ (t_eqb_q K t q = true <-> q = qt_t K t)
    /\ (q_eqb_c K q z = true <-> q = qt_c K z) /\ (c_eqb_q K z q = true <-> q = qt_c K z).
  Proof.
    intros q t z.
    assert (Q : forall (x y : quat T), (qa x = qa y /\ qb x = qb y /\ qc x = qc y /\ qd x = qd y) <-> x = y).
    { intros x y. split; [intros (? & ? & ? & ?); apply qt_eq; assumption | intros ->; repeat split]. }
    repeat match goal with |- _ /\ _ => split end;
      try (apply qt_eq; unfold q_add_t, t_add_q, q_add_c, c_add_q, q_sub_t, q_sub_c, q_mul_t, t_mul_q, q_add, q_sub, q_mul, mul_qq_impl, q_make, qt_t, qt_c;
           cbn [qa qb qc qd]; ring).
    - intros H. apply qt_eq; unfold q_div_t, q_mul, mul_qq_impl, q_make, qt_t; cbn [qa qb qc qd]; field; exact H.
    - unfold q_eqb_t. rewrite !andb_true_iff, !(of_eqb _ _ OF), <- Q. unfold qt_t. cbn [qa qb qc qd]. tauto.
    - unfold t_eqb_q. rewrite !andb_true_iff, !(of_eqb _ _ OF), <- Q. unfold qt_t. cbn [qa qb qc qd]. tauto.
    - unfold q_eqb_c. rewrite !andb_true_iff, !(of_eqb _ _ OF), <- Q. unfold qt_c. cbn [qa qb qc qd]. tauto.
    - unfold c_eqb_q. rewrite !andb_true_iff, !(of_eqb _ _ OF), <- Q. unfold qt_c. cbn [qa qb qc qd]. tauto.
  Qed.

  (** what the reversed operators do instead *)
  Theorem quaternion_reversed : forall (q : quat T) (t : T) (z : cplx T),
    t_sub_q K false t q = q_add K false (q_sub K false (qt_t K t) (qt_t K (qa q))) (q_unreal K false q)
    /\ (t_sub_q K false t q = q_sub K false (qt_t K t) q <-> q_unreal K false q = qt_t K 0)
    /\ (c_sub_q K false z q = q_sub K false (qt_c K z) q <-> qc q = 0 /\ qd q = 0)
    /\ (forall i, qcomp (t_div_q K false t q) i = t / qcomp q i).
  Proof.
    intros q t z.
    assert (D : forall x, x = 0 - x -> x = 0).
    { intros x E. destruct (of_total _ _ OF x 0) as [J|[J|J]]; [|exact J|].
      - pose proof (lt_neg _ J) as L. replace (- x) with x in L by (rewrite E at 1; ring).
        destruct (lt_ne _ _ (of_trans _ _ OF _ _ _ J L) eq_refl).
      - assert (L : 0 - x < 0).
        { pose proof (of_add _ _ OF 0 x (0 - x) J) as A. replace (0 + (0 - x)) with (0 - x) in A by ring.
          replace (x + (0 - x)) with 0 in A by ring. exact A. }
        rewrite <- E in L. destruct (lt_ne _ _ (of_trans _ _ OF _ _ _ J L) eq_refl). }
    assert (Z : 0 = 0 - 0) by ring.
    split; [|split; [|split]].
    - apply qt_eq; unfold t_sub_q, q_add, q_sub, q_unreal, q_make, qt_t; cbn [qa qb qc qd]; ring.
    - unfold t_sub_q, q_sub, q_unreal, q_make, qt_t. cbn [qa qb qc qd]. split.
      + intros E. injection E as E1 E2 E3. apply D in E1. apply D in E2. apply D in E3. rewrite E1, E2, E3. reflexivity.
      + intros E. injection E as E1 E2 E3. rewrite E1, E2, E3, <- Z. reflexivity.
    - unfold c_sub_q, q_sub, q_make, qt_c. cbn [qa qb qc qd]. split.
      + intros E. injection E as E2 E3. apply D in E2. apply D in E3. split; assumption.
      + intros [E2 E3]. rewrite E2, E3, <- Z. reflexivity.
    - intros [|[|[|i]]]; reflexivity.
  Qed.

  (** ** compound assignment, for both variants *)

  Theorem quaternion_assign : forall sp q (r : zref (quat T)) (z : cplx T),
    q_add_assign K sp q r = qzip (tadd K) q (zread q r)
    /\ q_sub_assign K sp q r = qzip (tsub K) q (zread q r)
    /\ q_mul_assign K q r = hamilton K q (zread q r)
    /\ q_assign_c K q z = qt_c K z
    /\ q_add_assign_c K q z = qzip (tadd K) q (qt_c K z)
    /\ q_sub_assign_c K q z = qzip (tsub K) q (qt_c K z)
    /\ q_mul_assign_c K q z = hamilton K q (qt_c K z).
  Proof.
    intros sp q r z. repeat match goal with |- _ /\ _ => split end.
    - destruct sp, r; reflexivity.
    - destruct sp, r; reflexivity.
    - rewrite hamilton_eq. reflexivity.
    - reflexivity.
    - apply qt_eq; unfold q_add_assign_c, qzip, qt_c; cbn [qa qb qc qd]; ring.
    - apply qt_eq; unfold q_sub_assign_c, qzip, qt_c; cbn [qa qb qc qd]; ring.
    - rewrite hamilton_eq. apply qt_eq; unfold q_mul_assign_c, qt_c; cbn [qa qb qc qd re im]; ring.
  Qed.

  Lemma sum2 : forall x y, sum K [x; y] = x + y.
  Proof. intros. unfold sum. cbn [fold_left]. ring. Qed.
  Lemma sum4 : forall x y z w, sum K [x; y; z; w] = x + y + z + w.
  Proof. intros. unfold sum. cbn [fold_left]. ring. Qed.

  Lemma scale_ne2 : forall m x y, m <> 0 -> x * x + y * y <> 0 -> x * (1 / m) * (x * (1 / m)) + y * (1 / m) * (y * (1 / m)) <> 0.
  Proof.
    intros m x y M N E. apply N.
    replace (x * x + y * y) with ((x * (1 / m) * (x * (1 / m)) + y * (1 / m) * (y * (1 / m))) * (m * m)) by (field; exact M).
    rewrite E. ring.
  Qed.
  Lemma scale_ne4 : forall m x y z w, m <> 0 -> x * x + y * y + z * z + w * w <> 0 ->
    x * (1 / m) * (x * (1 / m)) + y * (1 / m) * (y * (1 / m)) + z * (1 / m) * (z * (1 / m)) + w * (1 / m) * (w * (1 / m)) <> 0.
  Proof.
    intros m x y z w M N E. apply N.
    replace (x * x + y * y + z * z + w * w) with
      ((x * (1 / m) * (x * (1 / m)) + y * (1 / m) * (y * (1 / m)) + z * (1 / m) * (z * (1 / m)) + w * (1 / m) * (w * (1 / m))) * (m * m))
      by (field; exact M).
    rewrite E. ring.
  Qed.

  (** dividing undoes multiplying, on the right *)
  Theorem quaternion_div_assign : forall sp q (r : zref (quat T)), zread q r <> qt_t K 0 ->
    hamilton K (q_div_assign K sp q r) (zread q r) = q.
  Proof.
    intros sp q r H. set (w := zread q r) in *. rewrite hamilton_eq.
    assert (C : ~ (qa w = 0 /\ qb w = 0 /\ qc w = 0 /\ qd w = 0)).
    { intros (E1 & E2 & E3 & E4). apply H. apply qt_eq; assumption. }
    pose proof (norm4_ne _ _ _ _ C) as N.
    unfold q_div_assign. fold w. destruct sp.
    - assert (M : abs_max K (qa w) [qb w; qc w; qd w] <> 0).
      { intros E. apply C. pose proof (abs_max_0 _ _ E) as A.
        repeat split; apply A; cbn [In]; tauto. }
      set (m := abs_max K (qa w) [qb w; qc w; qd w]) in *. rewrite sum4.
      pose proof (scale_ne4 m _ _ _ _ M N) as S.
      apply qt_eq; cbn [qa qb qc qd]; field; repeat split; try exact M; try exact N; intros E; apply S; rewrite <- E; field; exact M.
    - apply qt_eq; cbn [qa qb qc qd]; field; exact N.
  Qed.

  Theorem quaternion_div_assign_c : forall sp q (z : cplx T), z <> cx_t K 0 ->
    hamilton K (q_div_assign_c K sp q z) (qt_c K z) = q.
  Proof.
    intros sp q z H. rewrite hamilton_eq. 
    assert (C : ~ (re z = 0 /\ im z = 0)).
    { intros (E1 & E2). apply H. apply cx_eq; assumption. }
    pose proof (norm2_ne _ _ C) as N.
    unfold q_div_assign_c, qt_c. destruct sp.
    - assert (M : abs_max K (re z) [im z] <> 0).
      { intros E. apply C. pose proof (abs_max_0 _ _ E) as A.
        repeat split; apply A; cbn [In]; tauto. }
      set (m := abs_max K (re z) [im z]) in *. rewrite sum2.
      pose proof (scale_ne2 m _ _ M N) as S.
      apply qt_eq; cbn [qa qb qc qd]; field; repeat split; try exact M; try exact N; intros E; apply S; rewrite <- E; field; exact M.
    - apply qt_eq; cbn [qa qb qc qd]; field; exact N.
  Qed.

  (** with a T: the primary template always, the specializations when the argument is another object *)
  Theorem quaternion_assign_t : forall sp q r,
    q_assign_t K q r = qt_t K (qval q r)
    /\ q_add_assign_t K q r = qzip (tadd K) q (qt_t K (qval q r))
    /\ q_sub_assign_t K q r = qzip (tsub K) q (qt_t K (qval q r))
    /\ (sp = false \/ (exists t, r = Other t) ->
        q_mul_assign_t K sp q r = qmap (fun x => x * qval q r) q
        /\ q_div_assign_t K sp q r = qmap (fun x => x / qval q r) q).
  Proof.
    intros sp q r. change (qval q r) with (qread q r). repeat match goal with |- _ /\ _ => split end.
    - reflexivity.
    - apply qt_eq; unfold q_add_assign_t, qzip, qt_t; cbn [qa qb qc qd]; ring.
    - apply qt_eq; unfold q_sub_assign_t, qzip, qt_t; cbn [qa qb qc qd]; ring.
    - intros [-> |[t ->]]; [|destruct sp]; split; reflexivity.
  Qed.

  (** sup and l1 *)
  Theorem quaternion_sup : forall q, (exists i, i < 4 /\ q_sup K q = tabs K (qcomp q i))%nat
    /\ (forall i, (i < 4)%nat -> tltb K (q_sup K q) (tabs K (qcomp q i)) = false)
    /\ q_l1 K q = tabs K (qa q) + tabs K (qb q) + tabs K (qc q) + tabs K (qd q).
  Proof.
    intros q. unfold q_sup, abs_max. split; [|split].
    - destruct (max_element_in [qb q; qc q; qd q] (qa q)) as [E|[E|[E|[E|[]]]]];
        [exists 0%nat|exists 1%nat|exists 2%nat|exists 3%nat]; (split; [lia|]); rewrite <- E; reflexivity.
    - intros i H. apply max_element_top. destruct i as [|[|[|[|i]]]]; [| | | |lia]; cbn [qcomp In]; tauto.
    - assert (A : forall x, nonneg x -> tabs K x = x).
      { intros x [-> |H]; rewrite (of_abs _ _ OF); [rewrite (of_irrefl _ _ OF); reflexivity|].
        destruct (tltb K x 0) eqn:E; [|reflexivity]. pose proof (of_trans _ _ OF _ _ _ H E) as G.
        rewrite (of_irrefl _ _ OF) in G. discriminate. }
      unfold q_l1, abs_sum. cbn [fold_left].
      rewrite (A 0) by (left; reflexivity).
      rewrite (A (0 + tabs K (qa q))) by (apply add_nonneg; [left; reflexivity | apply abs_nonneg]).
      rewrite (A (0 + tabs K (qa q) + tabs K (qb q))) by (repeat apply add_nonneg; try apply abs_nonneg; left; reflexivity).
      rewrite (A (0 + tabs K (qa q) + tabs K (qb q) + tabs K (qc q))) by (repeat apply add_nonneg; try apply abs_nonneg; left; reflexivity).
      ring.
  Qed.

  (** ** quaternion<float>, <double>, <long double>: the second argument of the constructor is lost *)
  Theorem quaternion_special : forall a b c d : T,
    q_make true a b c d = Qt a a c d
    /\ (q_make true a b c d = q_make false a b c d <-> a = b).
  Proof.
    intros a b c d. split; [reflexivity|]. cbn [q_make]. split; [intros E; injection E; exact (fun e => e) | intros ->; reflexivity].
  Qed.

  Theorem quaternion_special_ops : forall p q,
    (q_add K true p q = qzip (tadd K) p q <-> qa p + qa q = qb p + qb q)
    /\ (q_neg K true p = qmap (tneg K) p <-> - qa p = - qb p)
    /\ (q_conj K true p = q_conj K false p <-> qa p = - qb p)
    /\ (q_mul K true p q = hamilton K p q <-> qa (hamilton K p q) = qb (hamilton K p q))
    /\ (forall t, q_of_t K true t = qt_t K t <-> t = 0).
  Proof.
    intros p q. repeat match goal with |- _ /\ _ => split end.
    - unfold q_add, q_make, qzip. split; [intros E; injection E; exact (fun e => e) | intros E; rewrite <- E; reflexivity].
    - unfold q_neg, q_make, qmap. split; [intros E; injection E; exact (fun e => e) | intros E; rewrite <- E; reflexivity].
    - unfold q_conj, q_make. split; [intros E; injection E; exact (fun e => e) | intros E; rewrite <- E; reflexivity].
    - rewrite hamilton_eq. unfold q_mul, mul_qq_impl, q_make. cbn [qa qb].
      split; [intros E; injection E; exact (fun e => e) | intros E; rewrite <- E; reflexivity].
    - intros t. unfold q_of_t, q_make, qt_t. split; [intros E; injection E; exact (fun e => e) | intros ->; reflexivity].
  Qed.
End Laws.

(** ** The rational numbers *)

Definition Qc_ltb (x y : Qc) : bool := match (x ?= y)%Qc with Lt => true | _ => false end.
Definition Qc_ops : ops Qc :=
  Ops Qc (Q2Qc 0) (Q2Qc 1) Qcplus Qcminus Qcmult Qcdiv Qcopp Qc_eq_bool Qc_ltb
    (fun x => if Qc_ltb x (Q2Qc 0) then Qcopp x else x).

Lemma Qc_ltb_iff : forall x y, Qc_ltb x y = true <-> (x < y)%Qc.
Proof.
  intros x y. unfold Qc_ltb. rewrite Qclt_alt. destruct (x ?= y)%Qc; split; congruence.
Qed.

Lemma Qc_ofield : ofield Qc_ops Qcinv.
Proof.
  constructor.
  - exact Qcft.
  - intros x y. cbn [teqb Qc_ops]. split; [apply Qc_eq_bool_correct|]. intros ->. unfold Qc_eq_bool.
    destruct (Qc_eq_dec y y); [reflexivity|contradiction].
  - intros x. cbn [tltb Qc_ops]. destruct (Qc_ltb x x) eqn:E; [|reflexivity]. apply Qc_ltb_iff in E.
    destruct (Qclt_not_eq _ _ E eq_refl).
  - intros x y z. cbn [tltb Qc_ops]. rewrite !Qc_ltb_iff. apply Qclt_trans.
  - intros x y. cbn [tltb Qc_ops]. rewrite !Qc_ltb_iff. destruct (Q_dec x y) as [[H|H]|H]; [left|right; right|right; left].
    + exact H.
    + exact H.
    + apply Qc_is_canon. exact H.
  - intros x y z. cbn [tltb tadd Qc_ops]. rewrite !Qc_ltb_iff. unfold Qclt, Qcplus, Q2Qc. cbn [this].
    rewrite !Qred_correct. apply Qplus_lt_l.
  - intros x y. cbn [tltb tmul t0 Qc_ops]. rewrite !Qc_ltb_iff. unfold Qclt, Qcmult, Q2Qc. cbn [this].
    rewrite !Qred_correct. intros H J. pose proof (Qmult_lt_compat_r 0 x y J H) as M.
    rewrite Qmult_0_l in M. exact M.
  - reflexivity.
Qed.

Definition qi (n : Z) : Qc := Q2Qc (inject_Z n).

Ltac qc_differ H f := apply (f_equal f) in H; vm_compute in H; discriminate H.

Theorem complex_alias_refuted : ~ (forall T (K : ops T) inv, ofield K inv -> forall z r,
  c_mul_assign_t K z r = c_mul_t K z (cval z r)).
Proof.
  intros H. specialize (H Qc Qc_ops Qcinv Qc_ofield (Cx (qi 2) (qi 1)) (Comp 0)).
  qc_differ H (fun z : cplx Qc => this (im z)).
Qed.

Theorem quaternion_reversed_refuted :
  ~ (forall T (K : ops T) inv, ofield K inv -> forall t q, t_sub_q K false t q = q_sub K false (qt_t K t) q)
  /\ ~ (forall T (K : ops T) inv, ofield K inv -> forall z q, c_sub_q K false z q = q_sub K false (qt_c K z) q)
  /\ ~ (forall T (K : ops T) inv, ofield K inv -> forall t q,
          qa q <> t0 K -> qb q <> t0 K -> qc q <> t0 K -> qd q <> t0 K ->
          q_mul K false (t_div_q K false t q) q = qt_t K t).
Proof.
  split; [|split]; intros H.
  - specialize (H Qc Qc_ops Qcinv Qc_ofield (qi 0) (Qt (qi 0) (qi 1) (qi 0) (qi 0))).
    qc_differ H (fun z : quat Qc => this (qb z)).
  - specialize (H Qc Qc_ops Qcinv Qc_ofield (Cx (qi 0) (qi 0)) (Qt (qi 0) (qi 0) (qi 1) (qi 0))).
    qc_differ H (fun z : quat Qc => this (qc z)).
  - assert (N : qi 1 <> t0 Qc_ops) by (intros E; qc_differ E this).
    specialize (H Qc Qc_ops Qcinv Qc_ofield (qi 1) (Qt (qi 1) (qi 1) (qi 1) (qi 1)) N N N N).
    qc_differ H (fun z : quat Qc => this (qa z)).
Qed.

Theorem quaternion_special_refuted :
  ~ (forall T (a b c d : T), q_make true a b c d = Qt a b c d)
  /\ ~ (forall T (K : ops T) inv, ofield K inv -> forall p q, q_add K true p q = qzip (tadd K) p q)
  /\ ~ (forall T (K : ops T) inv, ofield K inv -> forall p q, q_mul K true p q = hamilton K p q)
  /\ ~ (forall T (K : ops T) inv, ofield K inv -> forall q r, q_mul_assign_t K true q r = qmap (fun x => tmul K x (qval q r)) q).
Proof.
  repeat match goal with |- _ /\ _ => split end; intros H.
  - specialize (H nat 1 2 3 4). discriminate H.
  - specialize (H Qc Qc_ops Qcinv Qc_ofield (Qt (qi 0) (qi 1) (qi 0) (qi 0)) (Qt (qi 0) (qi 0) (qi 0) (qi 0))).
    qc_differ H (fun z : quat Qc => this (qb z)).
  - specialize (H Qc Qc_ops Qcinv Qc_ofield (Qt (qi 0) (qi 1) (qi 0) (qi 0)) (Qt (qi 1) (qi 0) (qi 0) (qi 0))).
    qc_differ H (fun z : quat Qc => this (qb z)).
  - specialize (H Qc Qc_ops Qcinv Qc_ofield (Qt (qi 2) (qi 1) (qi 0) (qi 0)) (Comp 0)).
    qc_differ H (fun z : quat Qc => this (qb z)).
Qed.

Theorem component_range : forall (T : Type) (z : cplx T) (q : quat T),
  firstn (c_end - c_begin) (skipn c_begin (c_elems z)) = [re z; im z]
  /\ firstn (q_end - q_begin) (skipn q_begin (q_elems q)) = [qa q; qb q; qc q; qd q].
Proof. split; reflexivity. Qed.

Theorem component_crange_refuted :
  ~ (forall (T : Type) (z : cplx T), firstn (c_cend - c_cbegin) (skipn c_cbegin (c_elems z)) = [re z; im z])
  /\ ~ (forall (T : Type) (q : quat T), firstn (q_cend - q_cbegin) (skipn q_cbegin (q_elems q)) = [qa q; qb q; qc q; qd q]).
Proof.
  split; intros H.
  - specialize (H nat (Cx 1 2)). discriminate H.
  - specialize (H nat (Qt 1 2 3 4)). discriminate H.
Qed.
