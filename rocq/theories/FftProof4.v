(** ifft, dft_element, the fixed versions, and the inversion theorem. *)
From Coq Require Import List Bool Arith Lia Reals Lra ZifyBool ZifyNat.
From Verif Require Import Base CqModel FftModel FftSpec FftProof FftProof2 FftProof3.
Import ListNotations.
Local Open Scope R_scope.

(** ** ifft *)
Lemma rsum_opp n f : rsum n (fun i => - f i) = - rsum n f.
Proof. induction n as [|n IH]; cbn [rsum]; [|rewrite IH]; ring. Qed.

Lemma at_map (g : C -> C) x j : (j < length x)%nat -> at_ (map g x) j = g (at_ x j).
Proof.
  intros H. unfold at_. rewrite (nth_indep _ czero (g czero)) by (rewrite map_length; exact H).
  apply map_nth.
Qed.

Lemma dft_conj x k :
  c_conj Rops (dft_at (length x) (map (c_conj Rops) x) k) = dft_plus_at (length x) x k.
Proof.
  apply cx_eq; cbn [re im c_conj dft_at dft_plus_at Rops tneg].
  - apply rsum_ext. intros j Hj. unfold at_re, at_im.
    change (nth j (map (c_conj Rops) x) (Cx 0 0)) with (at_ (map (c_conj Rops) x) j).
    rewrite at_map by exact Hj. cbn [re im c_conj Rops tneg]. unfold at_, czero. ring.
  - rewrite <- rsum_opp. apply rsum_ext. intros j Hj. unfold at_re, at_im.
    change (nth j (map (c_conj Rops) x) (Cx 0 0)) with (at_ (map (c_conj Rops) x) j).
    rewrite at_map by exact Hj. cbn [re im c_conj Rops tneg]. unfold at_, czero. ring.
Qed.

Theorem ifft_is_idft p x f : length x = (2 ^ p)%nat -> (4 * length x <= f)%nat ->
  ifft Rops Rtrig f x = Ok (idft x).
Proof.
  intros Hx Hf. unfold ifft.
  rewrite (fft_is_dft p) by (rewrite map_length; assumption). cbn [bind]. f_equal.
  unfold idft, dft, dft_plus. rewrite map_length, !map_map. apply map_ext. intros k.
  rewrite dft_conj. reflexivity.
Qed.

(** ** inversion *)
Fixpoint cpow (z : C) (m : nat) : C := match m with O => cone | S m' => cmul (cpow z m') z end.

Lemma W_pow s n j m : W s n (m * j) = cpow (W s n j) m.
Proof.
  induction m as [|m IH]; cbn [cpow Nat.mul]; [apply W_0|].
  rewrite Nat.add_comm, W_add, IH. reflexivity.
Qed.
Lemma cpow_mul a b m : cpow (cmul a b) m = cmul (cpow a m) (cpow b m).
Proof. induction m as [|m IH]; cbn [cpow]; [|rewrite IH]; ring. Qed.

Lemma geometric z n : cmul (csub z cone) (csum n (cpow z)) = csub (cpow z n) cone.
Proof.
  induction n as [|n IH]; cbn [csum cpow]; [ring|].
  transitivity (cadd (cmul (csub z cone) (csum n (cpow z))) (cmul (csub z cone) (cpow z n))); [ring|].
  rewrite IH. ring.
Qed.

Lemma cmul_zero a b : cmul a b = czero -> a = czero \/ b = czero.
Proof.
  intros H. destruct (Req_EM_T (re a * re a + im a * im a) 0) as [E|E].
  - left. assert (re a = 0 /\ im a = 0) as [E1 E2] by (split; nra). apply cx_eq; assumption.
  - right. assert (H2 : cmul (Cx (re a) (- im a)) (cmul a b) = czero) by (rewrite H; ring).
    assert (H3 : cmul (Cx (re a) (- im a)) (cmul a b)
                 = Cx ((re a * re a + im a * im a) * re b) ((re a * re a + im a * im a) * im b))
      by (apply cx_eq; cbn [re im cmul]; ring).
    rewrite H3 in H2. injection H2 as H4 H5.
    apply Rmult_integral in H4, H5. apply cx_eq; cbn [re im czero]; tauto.
Qed.

Lemma cis_not_one n d : (0 < d < n)%nat -> cis (2 * PI * INR d / INR n) <> cone.
Proof.
  intros Hd H. unfold cis, cone in H. injection H as Hc _.
  assert (Hn : 0 < INR n) by (apply lt_0_INR; lia).
  assert (H0 : 0 < INR d) by (apply lt_0_INR; lia).
  assert (H1 : INR d < INR n) by (apply lt_INR; lia).
  set (a := PI * (INR d / INR n)) in *.
  replace (2 * PI * INR d / INR n) with (2 * a) in Hc by (unfold a, Rdiv; ring).
  rewrite cos_2a_sin in Hc.
  assert (Hq : 0 < INR d / INR n < 1).
  { split; [apply Rdiv_lt_0_compat; assumption|].
    apply (Rmult_lt_reg_r (INR n)); [exact Hn|].
    replace (INR d / INR n * INR n) with (INR d) by (field; lra). lra. }
  pose proof PI_RGT_0 as HP.
  assert (Hs : 0 < sin a) by (apply sin_gt_0; unfold a; nra).
  nra.
Qed.

Lemma W_diff_not_one s n j k : unit s -> (j < n)%nat -> (k < n)%nat -> j <> k ->
  cmul (W (- s) n j) (W s n k) <> cone.
Proof.
  intros Hs Hj Hk Hn H. unfold W in H. rewrite <- cis_add in H.
  assert (Hpos : INR n <> 0) by (apply INR_pos; lia).
  assert (Hsym : forall d, (0 < d < n)%nat -> forall e, unit e -> cis (e * (2 * PI * INR d / INR n)) <> cone).
  { intros d Hd e [->| ->] He.
    - rewrite Rmult_1_l in He. exact (cis_not_one n d Hd He).
    - apply (cis_not_one n d Hd). unfold cis, cone in *. injection He as H1 H2.
      replace (-1 * (2 * PI * INR d / INR n)) with (- (2 * PI * INR d / INR n)) in H1, H2 by ring.
      rewrite cos_neg in H1. rewrite sin_neg in H2. f_equal; lra. }
  destruct (Nat.lt_ge_cases j k) as [L|L].
  - apply (Hsym (k - j)%nat ltac:(lia) s Hs). rewrite <- H. f_equal.
    rewrite minus_INR by lia. field. exact Hpos.
  - apply (Hsym (j - k)%nat ltac:(lia) (- s)).
    + destruct Hs as [->| ->]; [right; reflexivity|left; ring].
    + rewrite <- H. f_equal. rewrite minus_INR by lia. field. exact Hpos.
Qed.

Lemma unit_opp s : unit s -> unit (- s).
Proof. intros [->| ->]; [right; reflexivity|left; ring]. Qed.

Lemma ortho s n j k : unit s -> (j < n)%nat -> (k < n)%nat ->
  csum n (fun m => cmul (W (- s) n (m * j)) (W s n (m * k)))
  = if (j =? k)%nat then Cx (INR n) 0 else czero.
Proof.
  intros Hs Hj Hk.
  rewrite (csum_ext n _ (cpow (cmul (W (- s) n j) (W s n k))))
    by (intros m _; rewrite !W_pow, cpow_mul; reflexivity).
  destruct (j =? k)%nat eqn:E.
  - apply Nat.eqb_eq in E. subst k.
    replace (cmul (W (- s) n j) (W s n j)) with cone.
    + clear. assert (Hp : forall m, cpow cone m = cone)
        by (induction m as [|m IH]; cbn [cpow]; [reflexivity|rewrite IH; ring]).
      rewrite (csum_ext n _ (fun _ => cone)) by (intros; apply Hp).
      induction n as [|n IH]; [reflexivity|]. cbn [csum]. rewrite IH, S_INR.
      apply cx_eq; cbn [re im cadd cone]; ring.
    + unfold W. rewrite <- cis_add, <- cis_0. f_equal. ring.
  - apply Nat.eqb_neq in E. set (z := cmul (W (- s) n j) (W s n k)).
    assert (Hz : csub z cone <> czero).
    { intros H. apply (W_diff_not_one s n j k Hs Hj Hk E). fold z.
      transitivity (cadd (csub z cone) cone); [ring|]. rewrite H. ring. }
    destruct (cmul_zero (csub z cone) (csum n (cpow z))) as [H|H]; [|contradiction|exact H].
    rewrite geometric. unfold z. rewrite cpow_mul, <- !W_pow.
    assert (Hn : (0 < n)%nat) by lia.
    rewrite !W_turns by (try exact Hn; try exact Hs; apply unit_opp, Hs). ring.
Qed.

Lemma ft_inverse s n X k : unit s -> (k < n)%nat ->
  ft s n (fun m => ft (- s) n X m) k = cmul (X k) (Cx (INR n) 0).
Proof.
  intros Hs Hk. unfold ft.
  rewrite (csum_ext n _ (fun m => csum n (fun j =>
    cmul (X j) (cmul (W (- s) n (m * j)) (W s n (m * k)))))).
  - rewrite csum_swap.
    rewrite (csum_ext n _ (fun j => cmul (X j) (if (j =? k)%nat then Cx (INR n) 0 else czero))).
    + rewrite (csum_one n k).
      * rewrite Nat.eqb_refl. reflexivity.
      * exact Hk.
      * intros i Hi Hne. apply Nat.eqb_neq in Hne. rewrite Hne. ring.
    + intros j Hj. rewrite <- (ortho s n j k Hs Hj Hk).
      rewrite (csum_ext n _ (fun m => cmul (cmul (W (- s) n (m * j)) (W s n (m * k))) (X j)))
        by (intros; ring).
      rewrite csum_mul_r. ring.
  - intros m Hm. rewrite <- csum_mul_r. apply csum_ext. intros j Hj.
    rewrite (Nat.mul_comm j m). ring.
Qed.

Lemma ft_ext s n X Y k : (forall j, (j < n)%nat -> X j = Y j) -> ft s n X k = ft s n Y k.
Proof. intros H. unfold ft. apply csum_ext. intros j Hj. rewrite H by exact Hj. reflexivity. Qed.

Lemma len_dft x : length (dft x) = length x.
Proof. unfold dft. rewrite map_length, seq_length. reflexivity. Qed.
Lemma len_dft_plus x : length (dft_plus x) = length x.
Proof. unfold dft_plus. rewrite map_length, seq_length. reflexivity. Qed.
Lemma len_idft x : length (idft x) = length x.
Proof. unfold idft. rewrite map_length. apply len_dft_plus. Qed.

Lemma at_dft x k : (k < length x)%nat -> at_ (dft x) k = ft (-1) (length x) (at_ x) k.
Proof. intros H. unfold dft. rewrite at_map_seq by exact H. symmetry. apply ft_minus. Qed.
Lemma at_dft_plus x k : (k < length x)%nat -> at_ (dft_plus x) k = ft 1 (length x) (at_ x) k.
Proof. intros H. unfold dft_plus. rewrite at_map_seq by exact H. symmetry. apply ft_plus. Qed.
Lemma at_idft x k : (k < length x)%nat ->
  at_ (idft x) k = cmul (ft 1 (length x) (at_ x) k) (Cx (/ INR (length x)) 0).
Proof.
  intros H. unfold idft. rewrite at_map by (rewrite len_dft_plus; exact H).
  rewrite at_dft_plus by exact H. apply cx_eq; cbn [re im cmul]; unfold Rdiv; ring.
Qed.

Theorem idft_dft x : idft (dft x) = x.
Proof.
  apply list_at; [rewrite len_idft, len_dft; reflexivity|].
  intros k Hk. rewrite len_idft, len_dft in Hk. rewrite at_idft by (rewrite len_dft; exact Hk).
  rewrite len_dft.
  rewrite (ft_ext 1 (length x) _ (fun m => ft (- 1) (length x) (at_ x) m)).
  - rewrite ft_inverse; [|left; reflexivity|exact Hk].
    assert (Hn : INR (length x) <> 0) by (apply INR_pos; lia).
    apply cx_eq; cbn [re im cmul]; field; exact Hn.
  - intros j Hj. apply at_dft, Hj.
Qed.

Lemma ft_scale s n X c k : ft s n (fun j => cmul (X j) c) k = cmul (ft s n X k) c.
Proof. unfold ft. rewrite <- csum_mul_r. apply csum_ext. intros; ring. Qed.

Theorem dft_idft x : dft (idft x) = x.
Proof.
  apply list_at; [rewrite len_dft, len_idft; reflexivity|].
  intros k Hk. rewrite len_dft, len_idft in Hk. rewrite at_dft by (rewrite len_idft; exact Hk).
  rewrite len_idft.
  rewrite (ft_ext (-1) (length x) _ (fun m => cmul (ft (- -1) (length x) (at_ x) m) (Cx (/ INR (length x)) 0))).
  - rewrite (ft_scale (-1) (length x) (fun m => ft (- -1) (length x) (at_ x) m)).
    rewrite ft_inverse; [|right; reflexivity|exact Hk].
    assert (Hn : INR (length x) <> 0) by (apply INR_pos; lia).
    apply cx_eq; cbn [re im cmul]; field; exact Hn.
  - intros j Hj. rewrite at_idft by exact Hj. replace (- -1) with 1 by ring. reflexivity.
Qed.

Theorem fft_ifft p x f : length x = (2 ^ p)%nat -> (4 * length x <= f)%nat ->
  bind (fft Rops Rtrig f x) (ifft Rops Rtrig f) = Ok x /\
  bind (ifft Rops Rtrig f x) (fft Rops Rtrig f) = Ok x.
Proof.
  intros Hx Hf. split.
  - rewrite (fft_is_dft p) by assumption. cbn [bind].
    rewrite (ifft_is_idft p) by (rewrite len_dft; assumption). rewrite idft_dft. reflexivity.
  - rewrite (ifft_is_idft p) by assumption. cbn [bind].
    rewrite (fft_is_dft p) by (rewrite len_idft; assumption). rewrite dft_idft. reflexivity.
Qed.

(** ** dft_element *)
Lemma gen_ra_ok x arg : forall d first last k,
  (first < last)%nat -> (last <= length x)%nat -> (last - first <= 2 ^ d)%nat ->
  gen_ra Rops Rtrig (S d) x first last arg ((last - first) / 2) k
  = Ok (csum (last - first) (fun v => cmul (at_ x (first + v)) (cis (arg * INR (k + v))))).
Proof.
  induction d as [|d IH]; intros first last k H1 H2 H3.
  - cbn [Nat.pow] in H3. replace (last - first)%nat with 1%nat by lia.
    change (1 / 2)%nat with 0%nat. cbn [gen_ra Nat.eqb]. rewrite rd_at by lia. cbn [bind csum].
    rewrite !Nat.add_0_r. f_equal. unfold cis. cbn [Rtrig tcos tsin of_nat]. rewrite c_mul_eq.
    change (tmul Rops arg (INR k)) with (arg * INR k). ring.
  - cbn [Nat.pow] in H3.
    assert (Hh : (2 * ((last - first) / 2) <= last - first < 2 * ((last - first) / 2) + 2)%nat).
    { pose proof (Nat.div_mod_eq (last - first) 2). pose proof (Nat.mod_upper_bound (last - first) 2). lia. }
    destruct (Nat.eq_dec ((last - first) / 2) 0) as [E|E].
    + assert (Em : (last - first = 1)%nat) by lia. rewrite E, Em.
      cbn [gen_ra Nat.eqb]. rewrite rd_at by lia. cbn [bind csum].
      rewrite !Nat.add_0_r. f_equal. unfold cis. cbn [Rtrig tcos tsin of_nat]. rewrite c_mul_eq.
      change (tmul Rops arg (INR k)) with (arg * INR k). ring.
    + change (gen_ra Rops Rtrig (S (S d)) x first last arg ((last - first) / 2) k)
        with (if ((last - first) / 2 =? 0)%nat
              then bind (rd x first) (fun y => Ok (c_mul Rops y (Cx (tcos Rtrig (tmul Rops arg (of_nat Rtrig k)))
                                                    (tsin Rtrig (tmul Rops arg (of_nat Rtrig k))))))
              else bind (gen_ra Rops Rtrig (S d) x first (first + (last - first) / 2) arg ((last - first) / 2 / 2) k)
                (fun a => bind (gen_ra Rops Rtrig (S d) x (first + (last - first) / 2) last arg
                                  ((last - first - (last - first) / 2) / 2) (k + (last - first) / 2))
                (fun b => Ok (c_add Rops a b)))).
      replace ((last - first) / 2 =? 0)%nat with false by lia.
      set (h := ((last - first) / 2)%nat) in *.
      replace (h / 2)%nat with ((first + h - first) / 2)%nat by (f_equal; lia).
      replace ((last - first - h) / 2)%nat with ((last - (first + h)) / 2)%nat by (f_equal; lia).
      rewrite IH by lia. cbn [bind]. rewrite IH by lia. cbn [bind]. f_equal. rewrite c_add_eq.
      replace (last - first)%nat with (h + (last - (first + h)))%nat by lia.
      rewrite csum_split. replace (first + h - first)%nat with h by lia. f_equal.
      apply csum_ext. intros v _. rewrite !Nat.add_assoc. reflexivity.
Qed.

Lemma gen_1_ok x arg last : forall d first k value theta,
  (first <= last)%nat -> (last <= length x)%nat -> (last - first < d)%nat -> theta = arg * INR k ->
  gen_1 Rops Rtrig d x first last arg k value theta
  = Ok (cadd value (csum (last - first) (fun v => cmul (at_ x (first + v)) (cis (arg * INR (k + v)))))).
Proof.
  induction d as [|d IH]; intros first k value theta H1 H2 H3 Ht; [lia|]. cbn [gen_1].
  destruct (first =? last)%nat eqn:E.
  - apply Nat.eqb_eq in E. subst first. rewrite Nat.sub_diag. cbn [csum]. f_equal. ring.
  - rewrite rd_at by (apply Nat.eqb_neq in E; lia). cbn [bind].
    apply Nat.eqb_neq in E.
    rewrite IH by (try lia; reflexivity). cbn [bind]. f_equal. rewrite c_add_eq. f_equal.
    rewrite c_mul_eq.
    replace (last - first)%nat with (1 + (last - (first + 1)))%nat by lia.
    rewrite csum_split. cbn [csum]. rewrite !Nat.add_0_r, Ht.
    replace (first + 1 + (last - (first + 1)) - (first + 1))%nat with (last - (first + 1))%nat by lia.
    unfold cis at 1. cbn [Rtrig tcos tsin]. f_equal.
    + unfold cis. ring.
    + apply csum_ext. intros v _. rewrite !Nat.add_assoc. reflexivity.
Qed.

Lemma dft_gen_ok ra d x arg : deep ra d (length x) ->
  dft_gen Rops Rtrig ra d x arg
  = Ok (csum (length x) (fun v => cmul (at_ x v) (cis (arg * INR v)))).
Proof.
  intros Hd. unfold dft_gen. destruct ra.
  - destruct (0 =? length x)%nat eqn:E.
    + apply Nat.eqb_eq in E. rewrite <- E. reflexivity.
    + apply Nat.eqb_neq in E. destruct Hd as (e & -> & He).
      replace (length x / 2)%nat with ((length x - 0) / 2)%nat by (f_equal; lia).
      rewrite gen_ra_ok by lia. rewrite Nat.sub_0_r. f_equal.
  - cbn [deep] in Hd. rewrite gen_1_ok; try lia.
    + rewrite Nat.sub_0_r. f_equal. cbn [Nat.add].
      change (Cx (t0 Rops) (t0 Rops)) with czero. ring.
    + cbn [INR Rops t0]. ring.
Qed.

Lemma dft_impl_ok ra d x i m : deep ra d (length x) -> (0 < m)%nat ->
  dft_element_impl Rops Rtrig ra d x i m
  = Ok (csum (length x) (fun v => cmul (at_ x v) (W (-1) m (v * i)))) /\
  idft_element_impl Rops Rtrig ra d x i m
  = Ok (c_div_t Rops (csum (length x) (fun v => cmul (at_ x v) (W 1 m (v * i)))) (INR m)).
Proof.
  intros Hd Hm. unfold dft_element_impl, idft_element_impl. rewrite !dft_gen_ok by exact Hd. cbn [bind].
  assert (Hp : INR m <> 0) by (apply INR_pos, Hm).
  split; f_equal; [|f_equal]; apply csum_ext; intros v _; f_equal; unfold W; f_equal;
    cbn [Rops Rtrig tneg tdiv tmul two_pi of_nat]; rewrite mult_INR; field; exact Hp.
Qed.

Theorem dft_element_is_dft ra d x i : x <> [] -> deep ra d (length x) ->
  dft_element Rops Rtrig ra d x i = Ok (dft_at (length x) x i) /\
  idft_element Rops Rtrig ra d x i
  = Ok (c_div_t Rops (dft_plus_at (length x) x i) (INR (length x))).
Proof.
  intros Hx Hd. unfold dft_element, idft_element.
  assert (Hn : (0 < length x)%nat) by (destruct x; [congruence|cbn [length]; lia]).
  destruct (dft_impl_ok ra d x i (length x) Hd Hn) as [E1 E2]. rewrite E1, E2.
  rewrite <- ft_minus, <- ft_plus. split; reflexivity.
Qed.

(** ** fixed::dft *)
Lemma dft_ra_ok elem result m (g : nat -> C) : (forall i, (i < m)%nat -> elem i m = Ok (g i)) ->
  forall k a, (a + k <= length result)%nat ->
  dft_ra elem result m (seq a k)
  = Ok (map (fun i => if (i <? m)%nat then g i else at_ result i) (seq a k)).
Proof.
  intros He. induction k as [|k IH]; intros a Ha; [reflexivity|]. cbn [seq dft_ra map].
  replace (a <? length result)%nat with true by lia. cbn [andb].
  destruct (a <? m)%nat eqn:E.
  - rewrite He by lia. cbn [bind]. rewrite IH by lia. reflexivity.
  - rewrite rd_at by lia. cbn [bind]. rewrite IH by lia. reflexivity.
Qed.

Lemma skipn_at (l : list C) a : skipn a l = map (at_ l) (seq a (length l - a)).
Proof.
  revert a; induction l as [|y l IH]; intros a.
  - rewrite skipn_nil. reflexivity.
  - destruct a as [|a].
    + cbn [skipn length]. rewrite Nat.sub_0_r. cbn [seq map]. f_equal.
      rewrite <- (skipn_O l) at 1. rewrite IH, Nat.sub_0_r.
      rewrite <- (seq_shift (length l) 0), map_map. reflexivity.
    + cbn [skipn length]. rewrite IH. replace (S (length l) - S a)%nat with (length l - a)%nat by lia.
      rewrite <- seq_shift, map_map. reflexivity.
Qed.

Lemma dft_fw_ok elem result last (g : nat -> C) :
  (forall i, (i < length result)%nat -> elem i (length result) = Ok (g i)) ->
  forall d i args, (i <= last)%nat -> (i <= length result)%nat ->
  args = map g (seq 0 i) -> (length result - i < d)%nat ->
  dft_fw d elem result (length result) i last i args
  = Ok (map (fun j => if (j <? last)%nat then g j else at_ result j) (seq 0 (length result))).
Proof.
  intros He. induction d as [|d IH]; intros i args H1 H2 Ha Hd; [lia|]. cbn [dft_fw].
  assert (Hl : length args = i) by (rewrite Ha, map_length, seq_length; reflexivity). rewrite Hl.
  destruct (length result =? i)%nat eqn:E.
  - apply Nat.eqb_eq in E. f_equal. rewrite E, Ha. apply map_ext_in. intros j Hj.
    apply in_seq in Hj. replace (j <? last)%nat with true by lia. reflexivity.
  - destruct (i =? last)%nat eqn:E2; cbn [negb andb].
    + apply Nat.eqb_eq in E2. subst last. f_equal. rewrite skipn_at.
      replace (length result) with (i + (length result - i))%nat at 2 by lia.
      rewrite seq_app, map_app, Ha, Nat.add_0_l. f_equal; apply map_ext_in; intros j Hj;
        apply in_seq in Hj.
      * replace (j <? i)%nat with true by lia. reflexivity.
      * replace (j <? i)%nat with false by lia. reflexivity.
    + replace (i <? length result)%nat with true by lia. rewrite He by lia. cbn [bind].
      replace (i + 1)%nat with (S i) by lia. apply IH; try lia.
      rewrite seq_S, map_app, Ha. reflexivity.
Qed.

Lemma fixed_ra d x r : x <> [] -> deep true d (length x) ->
  fixed_dft Rops Rtrig true d x r = Ok (stored (dft_at (length x) x) x r) /\
  fixed_idft Rops Rtrig true d x r
  = Ok (stored (fun i => c_div_t Rops (dft_plus_at (length x) x i) (INR (length x))) x r).
Proof.
  intros Hx Hd. unfold fixed_dft, fixed_idft, fixed_transform.
  change (@stored) with (fun g x r => map (fun i => if (i <? @length C x)%nat then g i else at_ r i) (seq 0 (length r))).
  split; (apply dft_ra_ok; [|lia]); intros i Hi;
    apply (dft_element_is_dft true d x i Hx Hd).
Qed.

Lemma fixed_fw_m d x r : (length x < d)%nat -> (length r < d)%nat ->
  fixed_dft Rops Rtrig false d x r
  = Ok (stored (fun i => csum (length x) (fun v => cmul (at_ x v) (W (-1) (length r) (v * i)))) x r) /\
  fixed_idft Rops Rtrig false d x r
  = Ok (stored (fun i => c_div_t Rops (csum (length x) (fun v => cmul (at_ x v) (W 1 (length r) (v * i))))
                           (INR (length r))) x r).
Proof.
  intros Hd Hr. unfold fixed_dft, fixed_idft, fixed_transform.
  change (@stored) with (fun g x r => map (fun i => if (i <? @length C x)%nat then g i else at_ r i) (seq 0 (length r))).
  split; apply dft_fw_ok; try lia; try reflexivity; intros i Hi;
    apply (dft_impl_ok false d x i (length r)); cbn [deep]; lia.
Qed.

(** with a result as long as the range both give the transform of the range *)
Theorem fixed_dft_same ra d x r : x <> [] -> length r = length x -> deep ra d (length x) ->
  fixed_dft Rops Rtrig ra d x r = Ok (dft x) /\ fixed_idft Rops Rtrig ra d x r = Ok (idft x).
Proof.
  intros Hx Hr Hd.
  assert (Hm : forall g, stored g x r = map g (seq 0 (length x))).
  { intros g. unfold stored. rewrite Hr. apply map_ext_in. intros i Hi. apply in_seq in Hi.
    replace (i <? length x)%nat with true by lia. reflexivity. }
  assert (Hi : forall k, c_div_t Rops (dft_plus_at (length x) x k) (INR (length x))
                         = Cx (re (dft_plus_at (length x) x k) / INR (length x))
                              (im (dft_plus_at (length x) x k) / INR (length x))) by reflexivity.
  assert (Ei : map (fun k => c_div_t Rops (dft_plus_at (length x) x k) (INR (length x)))
                 (seq 0 (length x)) = idft x).
  { unfold idft, dft_plus. rewrite map_map. reflexivity. }
  destruct ra.
  - destruct (fixed_ra d x r Hx Hd) as [E1 E2]. rewrite E1, E2, !Hm, Ei. split; reflexivity.
  - cbn [deep] in Hd. destruct (fixed_fw_m d x r Hd ltac:(lia)) as [E1 E2].
    rewrite E1, E2, !Hm, Hr, <- Ei. unfold dft. split; f_equal; apply map_ext; intros k.
    + rewrite <- ft_minus. reflexivity.
    + rewrite <- ft_plus. reflexivity.
Qed.

Lemma stored_ext g h x r : (forall k, g k = h k) -> stored g x r = stored h x r.
Proof. intros H. unfold stored. apply map_ext. intros i. rewrite H. reflexivity. Qed.

Theorem fixed_fw d x r : (length x < d)%nat -> (length r < d)%nat ->
  fixed_dft Rops Rtrig false d x r = Ok (stored (dft_over (length r) x) x r) /\
  fixed_idft Rops Rtrig false d x r = Ok (stored (idft_over (length r) x) x r).
Proof.
  intros Hd Hr. destruct (fixed_fw_m d x r Hd Hr) as [E1 E2]. rewrite E1, E2.
  split; f_equal; apply stored_ext; intros k; unfold dft_over, idft_over.
  - apply cx_eq; cbn [re im]; [rewrite csum_re|rewrite csum_im];
    apply rsum_ext; intros j Hj; unfold W, at_re, at_im, at_, czero, angle;
    replace (-1 * (2 * PI * INR (j * k) / INR (length r))) with (- (2 * PI * INR (j * k) / INR (length r))) by ring;
    cbn [re im cmul cis]; rewrite cos_neg, sin_neg; ring.
  - apply cx_eq; cbn [re im c_div_t Rops tdiv]; f_equal; [rewrite csum_re|rewrite csum_im];
    apply rsum_ext; intros j Hj; unfold W, at_re, at_im, at_, czero, angle;
    rewrite Rmult_1_l; cbn [re im cmul cis]; ring.
Qed.

Theorem fixed_ra_all d x r : x <> [] -> deep true d (length x) ->
  fixed_dft Rops Rtrig true d x r = Ok (stored (dft_at (length x) x) x r) /\
  fixed_idft Rops Rtrig true d x r = Ok (stored (idft_at x) x r).
Proof. exact (fixed_ra d x r). Qed.

Theorem dft_elements ra d x i : x <> [] -> deep ra d (length x) ->
  dft_element Rops Rtrig ra d x i = Ok (dft_at (length x) x i) /\
  idft_element Rops Rtrig ra d x i = Ok (idft_at x i).
Proof. exact (dft_element_is_dft ra d x i). Qed.
