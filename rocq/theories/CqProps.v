(** Properties of complex and quaternion. *)
From Coq Require Import List Bool Arith ZArith QArith Qcanon.
From Verif Require Import CqModel CqSpec CqProof.
Import ListNotations.
Close Scope Q_scope.
Close Scope Qc_scope.
Open Scope nat_scope.

(** ** C186 *)
Theorem cq_complex_ring : forall (T : Type) (K : ops T) (inv : T -> T),
  ofield K inv ->
  Ring_theory.ring_theory (cx_t K (t0 K)) (cx_t K (t1 K)) (c_add K) (c_mul K) (c_sub K) (c_neg K) eq.
Proof. exact @complex_ring. Qed.
Print Assumptions cq_complex_ring.
Example cq_ofield_ex : ofield Qc_ops Qcinv.
Proof. exact Qc_ofield. Qed.

Theorem cq_complex_mul : forall (T : Type) (K : ops T) (inv : T -> T),
  ofield K inv ->
  forall (x y : cplx T) (k : nat),
  k <= 1 -> ccomp (c_mul K x y) k = coef K 2 ctable (ccomp x) (ccomp y) k.
Proof. exact @complex_mul. Qed.
Print Assumptions cq_complex_mul.

Theorem cq_complex_div : forall (T : Type) (K : ops T) (inv : T -> T),
  ofield K inv ->
  forall x y : cplx T, y <> cx_t K (t0 K) -> c_mul K (c_div K x y) y = x /\ c_div K (c_mul K x y) y = x.
Proof. exact @complex_div. Qed.
Print Assumptions cq_complex_div.
Example cq_complex_div_ex :
  this (re (c_div Qc_ops (Cx (qi 4) (qi 2)) (Cx (qi 1) (qi (-1))))) = 1%Q
  /\ this (im (c_div Qc_ops (Cx (qi 4) (qi 2)) (Cx (qi 1) (qi (-1))))) = 3%Q.
Proof. split; reflexivity. Qed.

Theorem cq_complex_mixed : forall (T : Type) (K : ops T) (inv : T -> T),
  ofield K inv ->
  forall (x : cplx T) (t : T),
  c_add_t K x t = c_add K x (cx_t K t) /\
  t_add_c K t x = c_add K (cx_t K t) x /\
  c_sub_t K x t = c_sub K x (cx_t K t) /\
  t_sub_c K t x = c_sub K (cx_t K t) x /\
  c_mul_t K x t = c_mul K x (cx_t K t) /\
  t_mul_c K t x = c_mul K (cx_t K t) x /\
  (t <> t0 K -> c_div_t K x t = c_div K x (cx_t K t)) /\
  (x <> cx_t K (t0 K) -> t_div_c K t x = c_div K (cx_t K t) x) /\
  c_eqb_t K x t = c_eqb K x (cx_t K t) /\ (t_eqb_c K t x = true <-> x = cx_t K t).
Proof. exact @complex_mixed. Qed.
Print Assumptions cq_complex_mixed.

Theorem cq_complex_eq : forall (T : Type) (K : ops T) (inv : T -> T),
  ofield K inv -> forall x y : cplx T, (c_eqb K x y = true <-> x = y) /\ (c_neb K x y = true <-> x <> y).
Proof. exact @complex_eq. Qed.
Print Assumptions cq_complex_eq.

Theorem cq_complex_values : forall (T : Type) (K : ops T) (inv : T -> T),
  ofield K inv ->
  forall x y : cplx T,
  c_conj K (c_add K x y) = c_add K (c_conj K x) (c_conj K y) /\
  c_conj K (c_mul K x y) = c_mul K (c_conj K x) (c_conj K y) /\
  c_conj K (c_conj K x) = x /\
  c_mul K x (c_conj K x) = cx_t K (c_norm K x) /\
  c_norm K (c_mul K x y) = tmul K (c_norm K x) (c_norm K y) /\
  (c_norm K x = t0 K <-> x = cx_t K (t0 K)) /\
  nonneg K (c_norm K x) /\ c_perp K x = c_mul K {| re := t0 K; im := t1 K |} x.
Proof. exact @complex_values. Qed.
Print Assumptions cq_complex_values.

(** ** C187 *)
Theorem cq_complex_assign : forall (T : Type) (K : ops T) (z : cplx T) (r : zref (cplx T)),
  c_assign z r = zread z r /\
  c_add_assign K z r = c_add K z (zread z r) /\
  c_sub_assign K z r = c_sub K z (zread z r) /\
  c_mul_assign K z r = c_mul K z (zread z r) /\ c_div_assign K z r = c_div K z (zread z r).
Proof. exact @complex_assign. Qed.
Print Assumptions cq_complex_assign.

Theorem cq_complex_assign_t_partial : forall (T : Type) (K : ops T) (z : cplx T) (r : ref T),
  c_assign_t K z r = cx_t K (cval z r) /\
  c_add_assign_t K z r = c_add_t K z (cval z r) /\
  c_sub_assign_t K z r = c_sub_t K z (cval z r) /\
  (forall t : T,
   r = Other t -> c_mul_assign_t K z r = c_mul_t K z t /\ c_div_assign_t K z r = c_div_t K z t).
Proof. exact @complex_assign_t. Qed.
Print Assumptions cq_complex_assign_t_partial.

Theorem cq_complex_assign_alias : forall (T : Type) (K : ops T) (inv : T -> T),
  ofield K inv ->
  forall z : cplx T,
  c_mul_assign_t K z (Comp 0) =
  {| re := tmul K (re z) (re z); im := tmul K (im z) (tmul K (re z) (re z)) |} /\
  c_mul_assign_t K z (Comp 1) = c_mul_t K z (im z) /\
  (re z <> t0 K -> c_div_assign_t K z (Comp 0) = {| re := t1 K; im := im z |}) /\
  c_div_assign_t K z (Comp 1) = c_div_t K z (im z).
Proof. exact @complex_assign_alias. Qed.
Print Assumptions cq_complex_assign_alias.
Example cq_complex_alias_ex :
  let z := Cx (qi 2) (qi 1) in
  this (im (c_mul_assign_t Qc_ops z (Comp 0))) = 4%Q /\ this (im (c_mul_t Qc_ops z (qi 2))) = 2%Q.
Proof. split; reflexivity. Qed.

Theorem cq_complex_alias_refuted : ~ (forall T (K : ops T) inv, ofield K inv -> forall z r,
  c_mul_assign_t K z r = c_mul_t K z (cval z r)).
Proof. exact @complex_alias_refuted. Qed.
Print Assumptions cq_complex_alias_refuted.

(** ** C188 *)
Theorem cq_quaternion_ops : forall (T : Type) (K : ops T) (inv : T -> T),
  ofield K inv ->
  forall p q : quat T,
  q_add K false p q = qzip (tadd K) p q /\
  q_sub K false p q = qzip (tsub K) p q /\
  q_neg K false p = qmap (tneg K) p /\
  q_mul K false p q = hamilton K p q /\
  (q_eqb K p q = true <-> p = q) /\
  q_unreal K false p = q_sub K false p (qt_t K (q_real p)) /\ q_of_c (q_c1 p) (q_c2 p) = p.
Proof. exact @quaternion_ops. Qed.
Print Assumptions cq_quaternion_ops.

Theorem cq_quaternion_algebra : forall (T : Type) (K : ops T) (inv : T -> T),
  ofield K inv ->
  forall p q r : quat T,
  let mul := q_mul K false in
  let add := q_add K false in
  mul (mul p q) r = mul p (mul q r) /\
  mul (add p q) r = add (mul p r) (mul q r) /\
  mul r (add p q) = add (mul r p) (mul r q) /\
  mul (qt_t K (t1 K)) p = p /\
  mul p (qt_t K (t1 K)) = p /\
  q_conj K false (mul p q) = mul (q_conj K false q) (q_conj K false p) /\
  mul p (q_conj K false p) = qt_t K (q_norm K false p) /\
  q_norm K false (mul p q) = tmul K (q_norm K false p) (q_norm K false q) /\
  (q_norm K false p = t0 K <-> p = qt_t K (t0 K)).
Proof. exact @quaternion_algebra. Qed.
Print Assumptions cq_quaternion_algebra.
Example cq_quaternion_ex :
  let i := Qt (qi 0) (qi 1) (qi 0) (qi 0) in
  let j := Qt (qi 0) (qi 0) (qi 1) (qi 0) in
  this (qd (q_mul Qc_ops false i j)) = 1%Q /\ this (qd (q_mul Qc_ops false j i)) = (-1)%Q.
Proof. split; reflexivity. Qed.

Theorem cq_quaternion_mixed_partial : forall (T : Type) (K : ops T) (inv : T -> T),
  ofield K inv ->
  forall (q : quat T) (t : T) (z : cplx T),
  q_add_t K false q t = q_add K false q (qt_t K t) /\
  t_add_q K false t q = q_add K false (qt_t K t) q /\
  q_add_c K false q z = q_add K false q (qt_c K z) /\
  c_add_q K false z q = q_add K false (qt_c K z) q /\
  q_sub_t K false q t = q_sub K false q (qt_t K t) /\
  q_sub_c K false q z = q_sub K false q (qt_c K z) /\
  q_mul_t K false q t = q_mul K false q (qt_t K t) /\
  t_mul_q K false t q = q_mul K false (qt_t K t) q /\
  (t <> t0 K -> q_mul K false (q_div_t K false q t) (qt_t K t) = q) /\
  (q_eqb_t K q t = true <-> q = qt_t K t) /\
  (t_eqb_q K t q = true <-> q = qt_t K t) /\
  (q_eqb_c K q z = true <-> q = qt_c K z) /\ (c_eqb_q K z q = true <-> q = qt_c K z).
Proof. exact @quaternion_mixed_partial. Qed.
Print Assumptions cq_quaternion_mixed_partial.

Theorem cq_quaternion_reversed : forall (T : Type) (K : ops T) (inv : T -> T),
  ofield K inv ->
  forall (q : quat T) (t : T) (z : cplx T),
  t_sub_q K false t q = q_add K false (q_sub K false (qt_t K t) (qt_t K (qa q))) (q_unreal K false q) /\
  (t_sub_q K false t q = q_sub K false (qt_t K t) q <-> q_unreal K false q = qt_t K (t0 K)) /\
  (c_sub_q K false z q = q_sub K false (qt_c K z) q <-> qc q = t0 K /\ qd q = t0 K) /\
  (forall i : nat, qcomp (t_div_q K false t q) i = tdiv K t (qcomp q i)).
Proof. exact @quaternion_reversed. Qed.
Print Assumptions cq_quaternion_reversed.

Theorem cq_quaternion_reversed_refuted : ~ (forall T (K : ops T) inv, ofield K inv -> forall t q, t_sub_q K false t q = q_sub K false (qt_t K t) q)
  /\ ~ (forall T (K : ops T) inv, ofield K inv -> forall z q, c_sub_q K false z q = q_sub K false (qt_c K z) q)
  /\ ~ (forall T (K : ops T) inv, ofield K inv -> forall t q,
          qa q <> t0 K -> qb q <> t0 K -> qc q <> t0 K -> qd q <> t0 K ->
          q_mul K false (t_div_q K false t q) q = qt_t K t).
Proof. exact @quaternion_reversed_refuted. Qed.
Print Assumptions cq_quaternion_reversed_refuted.

Theorem cq_quaternion_sup : forall (T : Type) (K : ops T) (inv : T -> T),
  ofield K inv ->
  forall q : quat T,
  (exists i : nat, i < 4 /\ q_sup K q = tabs K (qcomp q i)) /\
  (forall i : nat, i < 4 -> tltb K (q_sup K q) (tabs K (qcomp q i)) = false) /\
  q_l1 K q = tadd K (tadd K (tadd K (tabs K (qa q)) (tabs K (qb q))) (tabs K (qc q))) (tabs K (qd q)).
Proof. exact @quaternion_sup. Qed.
Print Assumptions cq_quaternion_sup.

(** ** C189 *)
Theorem cq_quaternion_assign : forall (T : Type) (K : ops T) (inv : T -> T),
  ofield K inv ->
  forall (sp : bool) (q : quat T) (r : zref (quat T)) (z : cplx T),
  q_add_assign K sp q r = qzip (tadd K) q (zread q r) /\
  q_sub_assign K sp q r = qzip (tsub K) q (zread q r) /\
  q_mul_assign K q r = hamilton K q (zread q r) /\
  q_assign_c K q z = qt_c K z /\
  q_add_assign_c K q z = qzip (tadd K) q (qt_c K z) /\
  q_sub_assign_c K q z = qzip (tsub K) q (qt_c K z) /\ q_mul_assign_c K q z = hamilton K q (qt_c K z).
Proof. exact @quaternion_assign. Qed.
Print Assumptions cq_quaternion_assign.

Theorem cq_quaternion_div_assign : forall (T : Type) (K : ops T) (inv : T -> T),
  ofield K inv ->
  forall (sp : bool) (q : quat T) (r : zref (quat T)),
  zread q r <> qt_t K (t0 K) -> hamilton K (q_div_assign K sp q r) (zread q r) = q.
Proof. exact @quaternion_div_assign. Qed.
Print Assumptions cq_quaternion_div_assign.
Example cq_quaternion_div_ex :
  let q := q_div_assign Qc_ops true (Qt (qi 0) (qi 0) (qi 0) (qi 4)) (Another (Qt (qi 0) (qi 0) (qi 2) (qi 0))) in
  (this (qa q), this (qb q), this (qc q), this (qd q)) = (0%Q, 2%Q, 0%Q, 0%Q).
Proof. reflexivity. Qed.

Theorem cq_quaternion_div_assign_c : forall (T : Type) (K : ops T) (inv : T -> T),
  ofield K inv ->
  forall (sp : bool) (q : quat T) (z : cplx T),
  z <> cx_t K (t0 K) -> hamilton K (q_div_assign_c K sp q z) (qt_c K z) = q.
Proof. exact @quaternion_div_assign_c. Qed.
Print Assumptions cq_quaternion_div_assign_c.

Theorem cq_quaternion_assign_t_partial : forall (T : Type) (K : ops T) (inv : T -> T),
  ofield K inv ->
  forall (sp : bool) (q : quat T) (r : ref T),
  q_assign_t K q r = qt_t K (qval q r) /\
  q_add_assign_t K q r = qzip (tadd K) q (qt_t K (qval q r)) /\
  q_sub_assign_t K q r = qzip (tsub K) q (qt_t K (qval q r)) /\
  (sp = false \/ (exists t : T, r = Other t) ->
   q_mul_assign_t K sp q r = qmap (fun x : T => tmul K x (qval q r)) q /\
   q_div_assign_t K sp q r = qmap (fun x : T => tdiv K x (qval q r)) q).
Proof. exact @quaternion_assign_t. Qed.
Print Assumptions cq_quaternion_assign_t_partial.

(** ** C190 *)
Theorem cq_quaternion_special : forall (T : Type) (a b c d : T),
  q_make true a b c d = {| qa := a; qb := a; qc := c; qd := d |} /\
  (q_make true a b c d = q_make false a b c d <-> a = b).
Proof. exact @quaternion_special. Qed.
Print Assumptions cq_quaternion_special.

Theorem cq_quaternion_special_ops : forall (T : Type) (K : ops T) (inv : T -> T),
  ofield K inv ->
  forall p q : quat T,
  (q_add K true p q = qzip (tadd K) p q <-> tadd K (qa p) (qa q) = tadd K (qb p) (qb q)) /\
  (q_neg K true p = qmap (tneg K) p <-> tneg K (qa p) = tneg K (qb p)) /\
  (q_conj K true p = q_conj K false p <-> qa p = tneg K (qb p)) /\
  (q_mul K true p q = hamilton K p q <-> qa (hamilton K p q) = qb (hamilton K p q)) /\
  (forall t : T, q_of_t K true t = qt_t K t <-> t = t0 K).
Proof. exact @quaternion_special_ops. Qed.
Print Assumptions cq_quaternion_special_ops.

Theorem cq_quaternion_special_refuted : ~ (forall T (a b c d : T), q_make true a b c d = Qt a b c d)
  /\ ~ (forall T (K : ops T) inv, ofield K inv -> forall p q, q_add K true p q = qzip (tadd K) p q)
  /\ ~ (forall T (K : ops T) inv, ofield K inv -> forall p q, q_mul K true p q = hamilton K p q)
  /\ ~ (forall T (K : ops T) inv, ofield K inv -> forall q r, q_mul_assign_t K true q r = qmap (fun x => tmul K x (qval q r)) q).
Proof. exact @quaternion_special_refuted. Qed.
Print Assumptions cq_quaternion_special_refuted.

(** ** C191 *)
Theorem cq_component_range_partial : forall (T : Type) (z : cplx T) (q : quat T),
  firstn (c_end - c_begin) (skipn c_begin (c_elems z)) = [re z; im z]
  /\ firstn (q_end - q_begin) (skipn q_begin (q_elems q)) = [qa q; qb q; qc q; qd q].
Proof. exact @component_range. Qed.
Print Assumptions cq_component_range_partial.

Theorem cq_component_crange_refuted : ~ (forall (T : Type) (z : cplx T), firstn (c_cend - c_cbegin) (skipn c_cbegin (c_elems z)) = [re z; im z])
  /\ ~ (forall (T : Type) (q : quat T), firstn (q_cend - q_cbegin) (skipn q_cbegin (q_elems q)) = [qa q; qb q; qc q; qd q]).
Proof. exact @component_crange_refuted. Qed.
Print Assumptions cq_component_crange_refuted.

