(** Proofs about vectors in space. *)
From Coq Require Import QArith Bool Lqa.
From Verif Require Import VecModel VecSpec.
Local Open Scope Q_scope.

Lemma Qsqr_nonneg (x : Q) : 0 <= x * x.
Proof. destruct x as [[|p|p] q]; unfold Qle; cbn; discriminate. Qed.

Ltac open := unfold same, prod, unit_vec, orthogonal, reflect, sub, add, scale, dot, normalize_impl, length_sq in *; cbn [vx vy vz] in *.

Lemma add_scale n c v : prod (scale n c) v == c * prod n v.
Proof. open. ring. Qed.
Lemma prod_sub a b v : prod (sub a b) v == prod a v - prod b v.
Proof. open. ring. Qed.
Lemma prod_add a b v : prod (add a b) v == prod a v + prod b v.
Proof. open. ring. Qed.
Lemma prod_comm a b : prod a b == prod b a.
Proof. open. ring. Qed.
Lemma dot_prod a b : dot a b == prod a b.
Proof. reflexivity. Qed.

Lemma reflect_prod i n v : prod (reflect i n) v == prod i v - 2 * prod i n * prod n v.
Proof. unfold reflect. rewrite prod_sub, add_scale, dot_prod. ring. Qed.

Lemma reflect_lemma i n : unit_vec n ->
  prod (reflect i n) (reflect i n) == prod i i /\ prod (reflect i n) n == - prod i n /\
  (forall v, orthogonal n v -> prod (reflect i n) v == prod i v) /\ same (reflect (reflect i n) n) i.
Proof.
  intros U. unfold unit_vec in U.
  assert (N : prod (reflect i n) n == - prod i n) by (rewrite reflect_prod, U; ring).
  split; [|split; [|split]].
  - rewrite reflect_prod. rewrite (prod_comm i (reflect i n)), reflect_prod, (prod_comm n (reflect i n)), N, (prod_comm n i). ring.
  - exact N.
  - intros v H. unfold orthogonal in H. rewrite reflect_prod, H. ring.
  - set (j := reflect i n) in *. unfold same. unfold reflect at 1 2 3. unfold sub, scale. cbn [vx vy vz]. rewrite dot_prod, N.
    unfold j, reflect, sub, scale. cbn [vx vy vz]. rewrite dot_prod. repeat split; ring.
Qed.

Lemma normalize_lemma sqrt v : root_of (sqrt (prod v v)) (prod v v) -> ~ prod v v == 0 ->
  unit_vec (normalize sqrt v) /\ same (scale (normalize sqrt v) (sqrt (prod v v))) v /\ 0 < sqrt (prod v v).
Proof.
  intros [P R] NZ. unfold normalize, length. change (length_sq v) with (prod v v). set (l := sqrt (prod v v)) in *.
  assert (L : ~ l == 0) by (intros E; apply NZ; rewrite <- R, E; ring). split; [|split].
  - unfold unit_vec. assert (E : prod (normalize_impl v l) (normalize_impl v l) == prod v v / (l * l)) by (open; field; exact L).
    rewrite E, R. field. exact NZ.
  - open. repeat split; field; exact L.
  - apply Qle_lteq in P. destruct P as [P|P]; [exact P|]. exfalso. apply L. now rewrite <- P.
Qed.

Lemma resize_lemma sqrt v k : root_of (sqrt (prod v v)) (prod v v) -> ~ prod v v == 0 -> ~ k == 0 ->
  prod (resize sqrt v k) (resize sqrt v k) == k * k /\ same (scale (resize sqrt v k) (sqrt (prod v v))) (scale v k).
Proof.
  intros [P R] NZ K. unfold resize, length. change (length_sq v) with (prod v v). set (l := sqrt (prod v v)) in *.
  assert (L : ~ l == 0) by (intros E; apply NZ; rewrite <- R, E; ring). split.
  - assert (E : prod (normalize_impl v (l / k)) (normalize_impl v (l / k)) == prod v v * (k * k) / (l * l)) by (open; field; now split).
    rewrite E, R. field. exact NZ.
  - open. repeat split; field; now split.
Qed.

Lemma refract_lemma sqrt i n eta : unit_vec i -> unit_vec n -> 0 < eta ->
  let k := eta * eta + prod i n * prod i n - 1 in
  0 <= k -> root_of (sqrt (eta * eta + - prod i n * - prod i n - 1)) k ->
  let r := refract sqrt i n eta in
  unit_vec r /\ prod r n <= 0 /\ forall v, orthogonal n v -> prod r v == prod i v / eta.
Proof.
  intros Ui Un He k K [P R] r. unfold unit_vec in *.
  assert (E0 : ~ eta == 0) by lra.
  assert (B : Qle_bool 0 (eta * eta + - dot i n * - dot i n - 1) = true).
  { apply Qle_bool_iff. rewrite dot_prod. unfold k in K. lra. }
  unfold r, refract, refract_impl, refract_impl_1. rewrite B. cbn [negb].
  change (dot i n) with (prod i n). set (s := sqrt _) in *. set (w := add i (scale n (- prod i n - s))).
  assert (W : forall v, prod w v == prod i v + (- prod i n - s) * prod n v) by (intros v; unfold w; rewrite prod_add, add_scale; reflexivity).
  assert (S : forall v, prod (scale w (1 / eta)) v == prod w v / eta) by (intros v; rewrite add_scale; field; exact E0).
  split; [|split].
  - rewrite S, (prod_comm w (scale w (1 / eta))), S, W, (prod_comm i w), (prod_comm n w), !W, Ui, Un, (prod_comm n i).
    setoid_replace (1 + (- prod i n - s) * prod i n + (- prod i n - s) * (prod i n + (- prod i n - s) * 1)) with (1 - prod i n * prod i n + s * s) by ring.
    rewrite R. unfold k. field. exact E0.
  - rewrite S, W, Un. setoid_replace ((prod i n + (- prod i n - s) * 1) / eta) with (- (s / eta)) by (field; exact E0).
    assert (0 <= s / eta) by (apply Qle_shift_div_l; [exact He|lra]). lra.
  - intros v H. unfold orthogonal in H. rewrite S, W, H. field. exact E0.
Qed.

Lemma refract_total_lemma sqrt i n eta : eta * eta + prod i n * prod i n < 1 -> refract sqrt i n eta = Vec 0 0 0.
Proof.
  intros H. unfold refract, refract_impl, refract_impl_1. destruct (Qle_bool 0 _) eqn:B; [|reflexivity].
  apply Qle_bool_iff in B. rewrite dot_prod in B. exfalso. lra.
Qed.

Lemma cross_partial_lemma a b : vx (cross a b) == vy a * vz b - vz a * vy b /\ vz (cross a b) == vx a * vy b - vy a * vx b /\
  (vy a * vx b - vx a * vy b == vz a * vx b - vx a * vz b -> orthogonal (cross a b) a /\ orthogonal (cross a b) b).
Proof.
  split; [reflexivity|]. split; [reflexivity|]. intros H. unfold orthogonal, prod, cross. cbn [vx vy vz]. rewrite H. split; ring.
Qed.

Lemma cross_refuted_lemma : (exists a b, ~ orthogonal (cross a b) a) /\
  (exists a b, orthogonal a b /\ unit_vec a /\ unit_vec b /\ same (cross a b) (Vec 0 0 0)).
Proof.
  split.
  - exists (Vec 1 1 0), (Vec 1 0 0). vm_compute. discriminate.
  - exists (Vec 1 0 0), (Vec 0 0 1). vm_compute. auto 10.
Qed.

Lemma is_zero_lemma v : is_zero v = true <-> prod v v == 0.
Proof.
  unfold is_zero. rewrite !andb_true_iff, !Qeq_bool_iff. unfold prod. split.
  - intros [[A B] C]. rewrite A, B, C. ring.
  - intros H. pose proof (Qsqr_nonneg (vx v)) as A. pose proof (Qsqr_nonneg (vy v)) as B. pose proof (Qsqr_nonneg (vz v)) as C.
    assert (X : vx v * vx v == 0) by lra. assert (Y : vy v * vy v == 0) by lra. assert (Z : vz v * vz v == 0) by lra.
    apply Qmult_integral in X. apply Qmult_integral in Y. apply Qmult_integral in Z. tauto.
Qed.
