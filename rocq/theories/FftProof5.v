(** The Stockham transform of sprout::fixed::fft. *)
From Coq Require Import List Bool Arith Lia Reals Lra ZifyBool ZifyNat.
From Verif Require Import Base CqModel FftModel FftSpec FftProof FftProof2 FftProof3 FftProof4.
Import ListNotations.
Local Open Scope R_scope.

Definition sgn_of (inverse : bool) : R := if inverse then -1 else 1.
Lemma sgn_unit b : unit (sgn_of b).
Proof. destruct b; [right|left]; reflexivity. Qed.

Lemma pow2_div p l : (l <= p)%nat -> (2 ^ p / 2 ^ l = 2 ^ (p - l))%nat.
Proof.
  intros H. replace p with (p - l + l)%nat at 1 by lia. rewrite Nat.pow_add_r.
  apply Nat.div_mul. pose proof (pow2_pos l). lia.
Qed.

Lemma at_app1 (a b : list C) k : (k < length a)%nat -> at_ (a ++ b) k = at_ a k.
Proof. intros H. unfold at_. apply app_nth1, H. Qed.
Lemma at_app2 (a b : list C) k : (length a <= k)%nat -> at_ (a ++ b) k = at_ b (k - length a).
Proof. intros H. unfold at_. apply app_nth2. lia. Qed.

Lemma coeffs_loop_ok p inv : forall m, (m <= p)%nat ->
  length (coeffs_loop Rops Rtrig m p inv) = (2 ^ m)%nat /\
  forall k, (k < 2 ^ m)%nat -> at_ (coeffs_loop Rops Rtrig m p inv) k = W (sgn_of inv) (2 ^ p) k.
Proof.
  induction m as [|m IH]; intros Hm.
  - split; [reflexivity|]. intros k Hk. cbn [Nat.pow] in Hk. replace k with 0%nat by lia.
    rewrite W_0. reflexivity.
  - destruct IH as [HL HA]; [lia|]. cbn [coeffs_loop].
    set (arr := coeffs_loop Rops Rtrig m p inv) in *.
    match goal with |- context [map ?g arr] => set (gm := g) end.
    assert (Hg : forall z, gm z = cmul z (W (sgn_of inv) (2 ^ p) (2 ^ m))).
    { intros z. unfold gm. rewrite c_mul_eq. f_equal.
      assert (Ea : tdiv Rops (tmul Rops (if inv then tneg Rops (t1 Rops) else t1 Rops) (two_pi Rtrig))
                     (of_nat Rtrig (2 ^ p / 2 ^ m))
                   = sgn_of inv * (2 * PI * INR (2 ^ m) / INR (2 ^ p))).
      { rewrite pow2_div by lia.
        assert (Ep : INR (2 ^ p) = INR (2 ^ (p - m)) * INR (2 ^ m)).
        { rewrite <- mult_INR, <- Nat.pow_add_r. do 2 f_equal. lia. }
        rewrite Ep. destruct inv; cbn [Rops Rtrig tdiv tmul tneg t1 two_pi of_nat sgn_of]; field;
          split; apply INR_pos, pow2_pos. }
      rewrite Ea. reflexivity. }
    split; [rewrite app_length, map_length, HL; cbn [Nat.pow]; lia|].
    intros k Hk. cbn [Nat.pow] in Hk. destruct (Nat.lt_ge_cases k (2 ^ m)) as [L|L].
    + rewrite at_app1 by lia. apply HA, L.
    + rewrite at_app2, at_map, Hg, HA, HL by lia.
      rewrite <- W_add. f_equal. lia.
Qed.

Lemma land_bit x l : (Nat.land x (2 ^ l) =? 0)%nat = negb (Nat.testbit x l).
Proof.
  destruct (Nat.testbit x l) eqn:E; cbn [negb].
  - apply Nat.eqb_neq. intros H. assert (F : Nat.testbit (Nat.land x (2 ^ l)) l = false)
      by (rewrite H; apply Nat.bits_0).
    rewrite Nat.land_spec, E, Nat.pow2_bits_true in F. discriminate.
  - apply Nat.eqb_eq, Nat.bits_inj_0. intros k. rewrite Nat.land_spec, Nat.pow2_bits_eqb.
    destruct (l =? k)%nat eqn:F; [|apply andb_false_r].
    apply Nat.eqb_eq in F. subst k. rewrite E. reflexivity.
Qed.

Section Stockham.
  Variable X : nat -> C.
  Variable p : nat.
  Variable inv : bool.
  Local Notation n := (2 ^ p)%nat.
  Local Notation s := (sgn_of inv).

  (** the transform of 2^l elements, a stride apart, from element i *)
  Definition E (l i j : nat) : C :=
    csum (2 ^ l) (fun u => cmul (X (i + u * 2 ^ (p - l))) (W s n (2 ^ (p - l) * (u * j)))).

  Lemma E_step l i j : (S l <= p)%nat ->
    E (S l) i j = cadd (E l i j) (cmul (W s n (j * 2 ^ (p - S l))) (E l (i + 2 ^ (p - S l)) j)).
  Proof.
    intros Hl. unfold E at 1. cbn [Nat.pow]. rewrite csum_double.
    assert (Hq : (2 ^ (p - l) = 2 * 2 ^ (p - S l))%nat)
      by (replace (p - l)%nat with (S (p - S l)) by lia; reflexivity).
    f_equal.
    - unfold E. rewrite Hq. apply csum_ext. intros u Hu.
      f_equal; [f_equal; ring|f_equal; ring].
    - unfold E. rewrite Hq.
      transitivity (cmul (csum (2 ^ l) (fun u =>
        cmul (X (i + 2 ^ (p - S l) + u * (2 * 2 ^ (p - S l))))
             (W s n (2 * 2 ^ (p - S l) * (u * j))))) (W s n (j * 2 ^ (p - S l)))); [|ring].
      rewrite <- csum_mul_r. apply csum_ext. intros u Hu.
      replace (2 ^ (p - S l) * ((2 * u + 1) * j))%nat
        with (2 * 2 ^ (p - S l) * (u * j) + j * 2 ^ (p - S l))%nat by ring.
      rewrite W_add.
      replace (i + (2 * u + 1) * 2 ^ (p - S l))%nat
        with (i + 2 ^ (p - S l) + u * (2 * 2 ^ (p - S l)))%nat by ring.
      ring.
  Qed.

  Lemma E_shift l i j : (l <= p)%nat -> E l i (j + 2 ^ l) = E l i j.
  Proof.
    intros Hl. unfold E. apply csum_ext. intros u Hu. f_equal.
    replace (2 ^ (p - l) * (u * (j + 2 ^ l)))%nat with (2 ^ (p - l) * (u * j) + n * u)%nat.
    - rewrite W_add, W_turns; [ring|apply sgn_unit|apply pow2_pos].
    - assert (H : (n = 2 ^ (p - l) * 2 ^ l)%nat) by (rewrite <- Nat.pow_add_r; f_equal; lia).
      rewrite H. ring.
  Qed.

  Lemma E_step_high l i j : (S l <= p)%nat ->
    E (S l) i (j + 2 ^ l) = csub (E l i j) (cmul (W s n (j * 2 ^ (p - S l))) (E l (i + 2 ^ (p - S l)) j)).
  Proof.
    intros Hl. rewrite E_step, !E_shift by lia.
    replace ((j + 2 ^ l) * 2 ^ (p - S l))%nat with (j * 2 ^ (p - S l) + 2 ^ (p - 1))%nat.
    - rewrite W_add. replace (W s n (2 ^ (p - 1))) with (cneg cone); [ring|].
      replace n with (2 * 2 ^ (p - 1))%nat
        by (rewrite <- Nat.pow_succ_r'; f_equal; lia).
      symmetry. apply W_half; [apply sgn_unit|apply pow2_pos].
    - replace (2 ^ (p - 1))%nat with (2 ^ l * 2 ^ (p - S l))%nat
        by (rewrite <- Nat.pow_add_r; f_equal; lia).
      ring.
  Qed.

  Definition Sto (l : nat) (A : list C) : Prop :=
    length A = n /\
    forall i j, (i < 2 ^ (p - l))%nat -> (j < 2 ^ l)%nat -> at_ A (i * 2 ^ l + j) = E l i j.

  Local Notation cs := (coeffs Rops Rtrig p inv).

  Lemma fft_elem_ok l A x : (S l <= p)%nat -> Sto l A -> (x < n)%nat ->
    fft_elem Rops n A (2 ^ l) (x / (2 ^ l * 2)) (x mod 2 ^ l) (negb (Nat.land x (2 ^ l) =? 0)%nat) cs
    = Ok (E (S l) (x / 2 ^ S l) (x mod 2 ^ S l)).
  Proof.
    intros Hl [HL HA] Hx. set (q := (2 ^ l)%nat). assert (Hq : (0 < q)%nat) by apply pow2_pos.
    assert (Q2 : (2 ^ S l = 2 * q)%nat) by reflexivity.
    rewrite Q2. replace (q * 2)%nat with (2 * q)%nat by lia.
    set (i := (x / (2 * q))%nat). set (j := (x mod q)%nat).
    assert (Hj : (j < q)%nat) by (apply Nat.mod_upper_bound; lia).
    assert (Ex : (x = i * (2 * q) + (x / q mod 2) * q + j)%nat).
    { unfold i, j. rewrite (Nat.mul_comm 2 q), <- Nat.div_div by lia.
      pose proof (Nat.div_mod_eq x q) as E1. pose proof (Nat.div_mod_eq (x / q) 2) as E2. nia. }
    assert (Hb : (x / q mod 2 < 2)%nat) by (apply Nat.mod_upper_bound; lia).
    assert (Em : (x mod (2 * q) = (x / q mod 2) * q + j)%nat).
    { symmetry. apply Nat.mod_unique with i; [nia|]. rewrite Ex at 1. ring. }
    assert (Hi : (i < 2 ^ (p - S l))%nat).
    { apply Nat.div_lt_upper_bound; [lia|]. rewrite <- Q2, <- Nat.pow_add_r.
      replace (S l + (p - S l))%nat with p by lia. exact Hx. }
    assert (Hn : (n = 2 * (2 ^ (p - S l) * q))%nat).
    { unfold q. rewrite <- Nat.pow_add_r, <- Nat.pow_succ_r'. f_equal. lia. }
    assert (Hp : (2 ^ (p - l) = 2 * 2 ^ (p - S l))%nat)
      by (replace (p - l)%nat with (S (p - S l)) by lia; reflexivity).
    assert (Hh : (n / 2 = 2 ^ (p - S l) * q)%nat) by (rewrite Hn, Nat.mul_comm; apply Nat.div_mul; lia).
    destruct (coeffs_loop_ok p inv p (le_n _)) as [CL CA].
    unfold fft_elem. rewrite Hh, Nat.div_mul by lia.
    assert (Hr1 : (i * q + j < n)%nat) by nia.
    assert (Hr2 : (i * q + j + 2 ^ (p - S l) * q < n)%nat) by nia.
    assert (Hr3 : (j * 2 ^ (p - S l) < n)%nat) by nia.
    unfold coeffs. rewrite (rd_at A (i * q + j)) by lia. cbn [bind].
    rewrite rd_at by lia. cbn [bind]. rewrite rd_at by lia. cbn [bind].
    rewrite CA by exact Hr3.
    replace (i * q + j + 2 ^ (p - S l) * q)%nat with ((i + 2 ^ (p - S l)) * q + j)%nat by ring.
    unfold q. rewrite (HA i j), (HA (i + 2 ^ (p - S l))%nat j) by (unfold q in *; lia).
    f_equal. rewrite land_bit, Nat.testbit_odd, Nat.shiftr_div_pow2.
    fold q. rewrite Em. rewrite negb_involutive.
    destruct (mod2_cases (x / q)) as [Eb|Eb]; rewrite Eb.
    - replace (Nat.odd (x / q)) with false.
      + rewrite Nat.mul_0_l, Nat.add_0_l, E_step by lia. reflexivity.
      + symmetry. rewrite <- Nat.negb_even. apply negb_false_iff, Nat.even_spec.
        exists (x / q / 2)%nat. pose proof (Nat.div_mod_eq (x / q) 2). lia.
    - replace (Nat.odd (x / q)) with true.
      + rewrite Nat.mul_1_l, (Nat.add_comm q j). unfold q. rewrite E_step_high by lia. reflexivity.
      + symmetry. apply Nat.odd_spec. exists (x / q / 2)%nat.
        pose proof (Nat.div_mod_eq (x / q) 2). lia.
  Qed.

  Lemma butterfly_all l A : (S l <= p)%nat -> Sto l A -> forall k a, (a + k <= n)%nat ->
    butterfly Rops n A (2 ^ l) cs (seq a k)
    = Ok (map (fun x => E (S l) (x / 2 ^ S l) (x mod 2 ^ S l)) (seq a k)).
  Proof.
    intros Hl HA. induction k as [|k IH]; intros a Ha; [reflexivity|]. cbn [seq butterfly map].
    rewrite fft_elem_ok by (try exact Hl; try exact HA; lia). cbn [bind].
    rewrite IH by lia. reflexivity.
  Qed.

  Lemma fft_loop_ok k : forall l d A, (l + k = p)%nat -> (k < d)%nat -> Sto l A ->
    exists A', fft_loop Rops d n A (2 ^ l) cs = Ok A' /\ Sto p A'.
  Proof.
    induction k as [|k IH]; intros l d A Hk Hd HA; (destruct d as [|d]; [lia|]); cbn [fft_loop].
    - replace l with p in * by lia. rewrite Nat.eqb_refl. exists A. split; [reflexivity|exact HA].
    - replace (2 ^ l =? n)%nat with false.
      + rewrite butterfly_all by (try exact HA; lia). cbn [bind].
        replace (2 ^ l * 2)%nat with (2 ^ S l)%nat by (cbn [Nat.pow]; lia).
        apply IH; try lia. split; [rewrite map_length, seq_length; reflexivity|].
        intros i j Hi Hj.
        assert (Hin : (i * 2 ^ S l + j < n)%nat).
        { assert (Hn : (n = 2 ^ (p - S l) * 2 ^ S l)%nat)
            by (rewrite <- Nat.pow_add_r; f_equal; lia). nia. }
        rewrite at_map_seq by exact Hin. f_equal.
        * symmetry. apply Nat.div_unique with j; [exact Hj|ring].
        * symmetry. apply Nat.mod_unique with i; [exact Hj|ring].
      + symmetry. apply Nat.eqb_neq. intros Heq.
        assert (2 ^ l < n)%nat by (apply Nat.pow_lt_mono_r; lia). lia.
  Qed.
End Stockham.

Lemma fft_loop_dft p inv d x : length x = (2 ^ p)%nat -> (p < d)%nat ->
  fft_loop Rops d (2 ^ p) x 1 (coeffs Rops Rtrig p inv)
  = Ok (if inv then dft x else dft_plus x).
Proof.
  intros Hx Hd.
  destruct (fft_loop_ok (at_ x) p inv p 0 d x) as (A & HR & HL & HA); try lia.
  - split; [exact Hx|]. intros i j Hi Hj. cbn [Nat.pow] in Hj. replace j with 0%nat by lia.
    cbn [Nat.pow]. rewrite Nat.mul_1_r, Nat.add_0_r. unfold E. cbn [csum Nat.pow].
    rewrite !Nat.mul_0_l, Nat.mul_0_r, W_0, Nat.add_0_r. ring.
  - change (2 ^ 0)%nat with 1%nat in HR. rewrite HR. f_equal.
    assert (Hf : forall k, (k < 2 ^ p)%nat -> at_ A k = ft (sgn_of inv) (2 ^ p) (at_ x) k).
    { intros k Hk. specialize (HA 0%nat k). rewrite Nat.mul_0_l, Nat.add_0_l in HA.
      rewrite HA by (try exact Hk; rewrite Nat.sub_diag; cbn [Nat.pow]; lia).
      unfold E, ft. apply csum_ext. intros u Hu. rewrite Nat.sub_diag. cbn [Nat.pow].
      rewrite Nat.mul_1_r, Nat.mul_1_l, Nat.add_0_l. reflexivity. }
    destruct inv; apply list_at.
    + rewrite len_dft. lia.
    + intros k Hk. rewrite Hf, at_dft by lia. rewrite Hx. reflexivity.
    + rewrite len_dft_plus. lia.
    + intros k Hk. rewrite Hf, at_dft_plus by lia. rewrite Hx. reflexivity.
Qed.

Lemma make_input_padded m x : make_input Rops m x = padded m x.
Proof.
  apply list_at.
  - unfold make_input, padded. rewrite map_length, seq_length, app_length, firstn_length, repeat_length. lia.
  - unfold make_input. intros k Hk. rewrite map_length, seq_length in Hk. rewrite at_map_seq by exact Hk.
    change (padded m x) with (firstn m x ++ repeat czero (m - length x)). destruct (k <? length x)%nat eqn:E1.
    + rewrite at_app1 by (rewrite firstn_length; lia).
      unfold at_. rewrite <- (firstn_skipn m x) at 1. rewrite app_nth1 by (rewrite firstn_length; lia).
      reflexivity.
    + rewrite at_app2 by (rewrite firstn_length; lia). unfold at_.
      rewrite nth_repeat. reflexivity.
Qed.

Theorem fixed_fft_is d p x : (p < d)%nat ->
  fixed_fft Rops Rtrig d p x = Ok (dft_plus (padded (2 ^ p) x)).
Proof.
  intros Hd. unfold fixed_fft. rewrite make_input_padded.
  rewrite fft_loop_dft; [reflexivity| |exact Hd].
  unfold padded. rewrite app_length, firstn_length, repeat_length. lia.
Qed.

Theorem fixed_ifft_is d p x : (p < d)%nat -> length x = (2 ^ p)%nat ->
  fixed_ifft Rops Rtrig d p x
  = Ok (map (fun z => Cx (re z / INR (length x)) (im z / INR (length x))) (dft x)).
Proof.
  intros Hd Hx. unfold fixed_ifft. rewrite fft_loop_dft by assumption. cbn [bind]. f_equal.
  rewrite Hx. reflexivity.
Qed.

(** the two undo each other *)
Theorem fixed_round d p x : (p < d)%nat -> length x = (2 ^ p)%nat ->
  bind (fixed_fft Rops Rtrig d p x) (fixed_ifft Rops Rtrig d p) = Ok x.
Proof.
  intros Hd Hx. rewrite fixed_fft_is by exact Hd. cbn [bind].
  assert (Hp : padded (2 ^ p) x = x).
  { unfold padded. rewrite <- Hx, firstn_all, Nat.sub_diag. apply app_nil_r. }
  rewrite Hp, fixed_ifft_is by (rewrite ?len_dft_plus; assumption). f_equal.
  rewrite len_dft_plus. apply list_at; [rewrite map_length, len_dft, len_dft_plus; reflexivity|].
  intros k Hk. rewrite map_length, len_dft, len_dft_plus in Hk.
  rewrite at_map by (rewrite len_dft, len_dft_plus; exact Hk).
  rewrite at_dft by (rewrite len_dft_plus; exact Hk). rewrite len_dft_plus.
  rewrite (ft_ext (-1) (length x) _ (fun m => ft (- -1) (length x) (at_ x) m)).
  - rewrite ft_inverse; [|right; reflexivity|exact Hk].
    assert (Hn : INR (length x) <> 0) by (apply INR_pos; lia).
    apply cx_eq; cbn [re im cmul]; field; exact Hn.
  - intros j Hj. rewrite at_dft_plus by exact Hj. replace (- -1) with 1 by ring. reflexivity.
Qed.

(** ** what fails *)

(** fixed::fft is not the transform *)
Lemma angle_4_1_1 : angle 4 1 1 = PI / 2.
Proof. unfold angle. change (1 * 1)%nat with 1%nat. cbn [INR]. field. Qed.

Theorem fixed_fft_refuted :
  exists x y, length x = (2 ^ 2)%nat /\ fixed_fft Rops Rtrig 3 2 x = Ok y /\
    fft Rops Rtrig 16 x = Ok (dft x) /\ nth 1 y (Cx 0 0) = Cx 0 1 /\
    nth 1 (dft x) (Cx 0 0) = Cx 0 (-1).
Proof.
  exists [Cx 0 0; Cx 1 0; Cx 0 0; Cx 0 0], (dft_plus [Cx 0 0; Cx 1 0; Cx 0 0; Cx 0 0]).
  split; [reflexivity|]. split; [apply fixed_fft_is; lia|].
  split; [apply (fft_is_dft 2); [reflexivity|cbn [length]; lia]|].
  split; cbn [dft dft_plus length seq map nth]; unfold dft_at, dft_plus_at;
    cbn [rsum]; unfold at_re, at_im; cbn [nth re im]; rewrite angle_4_1_1, cos_PI2, sin_PI2; f_equal; ring.
Qed.

(** with forward iterators and a longer result fixed::dft uses the size of the result *)
Theorem fixed_dft_refuted :
  exists x r a b, fixed_dft Rops Rtrig true 2 x r = Ok a /\ fixed_dft Rops Rtrig false 5 x r = Ok b /\
    nth 1 a (Cx 0 0) = dft_at (length x) x 1 /\ nth 1 b (Cx 0 0) <> nth 1 a (Cx 0 0).
Proof.
  exists [Cx 1 0; Cx 1 0], [Cx 0 0; Cx 0 0; Cx 0 0; Cx 0 0]. eexists. eexists.
  split; [apply fixed_ra; [discriminate|]; exists 1%nat; split; [reflexivity|cbn; lia]|].
  split; [apply fixed_fw_m; cbn [length]; lia|].
  split; [reflexivity|].
  unfold stored. cbn [length seq map nth Nat.ltb Nat.leb]. intros H.
  apply (f_equal im) in H. cbn [im dft_at] in H. rewrite csum_im in H. cbn [rsum] in H.
  unfold at_re, at_im, at_, angle, W in H. cbn [nth re im cmul cis] in H.
  change (0 * 1)%nat with 0%nat in H. change (1 * 1)%nat with 1%nat in H. cbn [INR] in H.
  replace (-1 * (2 * PI * 1 / (1 + 1 + 1 + 1))) with (- (PI / 2)) in H by field.
  replace (2 * PI * 1 / (1 + 1)) with PI in H by field.
  replace (-1 * (2 * PI * 0 / (1 + 1 + 1 + 1))) with 0 in H by (unfold Rdiv; ring).
  replace (2 * PI * 0 / (1 + 1)) with 0 in H by (unfold Rdiv; ring).
  rewrite sin_neg, cos_neg, cos_PI2, sin_PI2, sin_0, cos_0, sin_PI, cos_PI in H. lra.
Qed.
