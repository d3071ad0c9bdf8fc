(** Properties of the Fourier transforms, over the real numbers. *)
From Coq Require Import List Arith Reals Lia.
From Verif Require Import Base CqModel FftModel FftSpec FftProof3 FftProof4 FftProof5.
Import ListNotations.
Local Open Scope R_scope.

(** ** C192.  sprout::fft(first, last) *)
Theorem fft_dft_partial : forall p x f, length x = (2 ^ p)%nat -> (4 * length x <= f)%nat ->
  fft Rops Rtrig f x = Ok (dft x).
Proof. exact @fft_is_dft. Qed.
Print Assumptions fft_dft_partial.
Example fft_dft_ex : forall a b c d, let x := [Cx a 0; Cx 0 b; Cx c d; Cx 1 2; Cx d b; Cx 0 0; Cx 7 a; Cx c c] in
  length x = (2 ^ 3)%nat /\ fft Rops Rtrig 32 x = Ok (dft x) /\
  nth 0 (dft x) (Cx 0 0) = Cx (a + c + 1 + d + 7 + c) (b + d + 2 + b + a + c).
Proof.
  intros a b c d x. split; [reflexivity|]. split; [apply (fft_is_dft 3); [reflexivity|unfold x; cbn [length]; lia]|].
  unfold x. cbn [dft length seq map nth]. unfold dft_at. cbn [rsum]. unfold at_re, at_im. cbn [nth re im].
  unfold angle. cbn [Nat.mul INR]. rewrite !Rmult_0_r. unfold Rdiv. rewrite !Rmult_0_l, !cos_0, !sin_0.
  f_equal; ring.
Qed.

(** ** C193.  sprout::ifft(first, last) *)
Theorem ifft_idft_partial : forall p x f, length x = (2 ^ p)%nat -> (4 * length x <= f)%nat ->
  ifft Rops Rtrig f x = Ok (idft x).
Proof. exact @ifft_is_idft. Qed.
Print Assumptions ifft_idft_partial.
Example ifft_idft_ex : forall a b, ifft Rops Rtrig 8 [a; b] = Ok (idft [a; b]).
Proof. intros a b. apply (ifft_is_idft 1); [reflexivity|cbn [length]; lia]. Qed.

Theorem fft_round_trip_partial : forall p x f, length x = (2 ^ p)%nat -> (4 * length x <= f)%nat ->
  bind (fft Rops Rtrig f x) (ifft Rops Rtrig f) = Ok x /\
  bind (ifft Rops Rtrig f x) (fft Rops Rtrig f) = Ok x.
Proof. exact @fft_ifft. Qed.
Print Assumptions fft_round_trip_partial.
Example fft_round_trip_ex : forall a b c d,
  bind (fft Rops Rtrig 16 [a; b; c; d]) (ifft Rops Rtrig 16) = Ok [a; b; c; d].
Proof. intros a b c d. apply (fft_ifft 2); [reflexivity|cbn [length]; lia]. Qed.

(** the transform and its inverse, for every length *)
Theorem dft_inverse : forall x, idft (dft x) = x /\ dft (idft x) = x.
Proof. exact (fun x => conj (idft_dft x) (dft_idft x)). Qed.
Print Assumptions dft_inverse.
Example dft_inverse_ex : forall a b c, idft (dft [a; b; c]) = [a; b; c].
Proof. intros a b c. apply idft_dft. Qed.

(** ** C194.  dft_element and idft_element *)
Theorem dft_element_partial : forall ra d x i, x <> [] -> deep ra d (length x) ->
  dft_element Rops Rtrig ra d x i = Ok (dft_at (length x) x i) /\
  idft_element Rops Rtrig ra d x i = Ok (idft_at x i).
Proof. exact @dft_elements. Qed.
Print Assumptions dft_element_partial.
Example dft_element_ex : forall a b c, deep true 3 (length [a; b; c]) /\ deep false 4 (length [a; b; c]) /\
  dft_element Rops Rtrig true 3 [a; b; c] 2 = dft_element Rops Rtrig false 4 [a; b; c] 2.
Proof.
  intros a b c. assert (H1 : deep true 3 (length [a; b; c])) by (exists 2%nat; split; [reflexivity|cbn; lia]).
  assert (H2 : deep false 4 (length [a; b; c])) by (cbn; lia).
  split; [exact H1|]. split; [exact H2|].
  rewrite (proj1 (dft_elements true 3 [a; b; c] 2 ltac:(discriminate) H1)).
  rewrite (proj1 (dft_elements false 4 [a; b; c] 2 ltac:(discriminate) H2)). reflexivity.
Qed.

(** ** C195.  fixed::dft and fixed::idft *)
Theorem fixed_dft_partial : forall ra d x r, x <> [] -> length r = length x -> deep ra d (length x) ->
  fixed_dft Rops Rtrig ra d x r = Ok (dft x) /\ fixed_idft Rops Rtrig ra d x r = Ok (idft x).
Proof. exact @fixed_dft_same. Qed.
Print Assumptions fixed_dft_partial.
Example fixed_dft_ex : forall a b c z, fixed_dft Rops Rtrig false 4 [a; b; c] [z; z; z] = Ok (dft [a; b; c]).
Proof. intros a b c z. apply fixed_dft_same; [discriminate|reflexivity|cbn; lia]. Qed.

Theorem fixed_dft_random_access_partial : forall d x r, x <> [] -> deep true d (length x) ->
  fixed_dft Rops Rtrig true d x r = Ok (stored (dft_at (length x) x) x r) /\
  fixed_idft Rops Rtrig true d x r = Ok (stored (idft_at x) x r).
Proof. exact @fixed_ra_all. Qed.
Print Assumptions fixed_dft_random_access_partial.
Example fixed_dft_random_access_ex : forall a b z, fixed_dft Rops Rtrig true 2 [a; b] [z; z; z] =
  Ok [dft_at 2 [a; b] 0; dft_at 2 [a; b] 1; z].
Proof. intros a b z. apply fixed_ra_all; [discriminate|]. exists 1%nat. split; [reflexivity|cbn; lia]. Qed.

(** What the version for other iterators computes: the divisor is the size of the result. *)
Theorem fixed_dft_forward_partial : forall d x r, (length x < d)%nat -> (length r < d)%nat ->
  fixed_dft Rops Rtrig false d x r = Ok (stored (dft_over (length r) x) x r) /\
  fixed_idft Rops Rtrig false d x r = Ok (stored (idft_over (length r) x) x r).
Proof. exact @fixed_fw. Qed.
Print Assumptions fixed_dft_forward_partial.
Example fixed_dft_forward_ex : forall a b c z, fixed_dft Rops Rtrig false 4 [a; b; c] [z; z] =
  Ok [dft_over 2 [a; b; c] 0; dft_over 2 [a; b; c] 1].
Proof. intros a b c z. apply fixed_fw; cbn; lia. Qed.

Theorem fixed_dft_forward_refuted :
  exists x r a b, fixed_dft Rops Rtrig true 2 x r = Ok a /\ fixed_dft Rops Rtrig false 5 x r = Ok b /\
    nth 1 a (Cx 0 0) = dft_at (length x) x 1 /\ nth 1 b (Cx 0 0) <> nth 1 a (Cx 0 0).
Proof. exact @fixed_dft_refuted. Qed.
Print Assumptions fixed_dft_forward_refuted.

(** ** C196.  fixed::fft and detail::ifft: the sign of the exponent is the opposite of that of dft. *)
Theorem fixed_fft_partial : forall d p x, (p < d)%nat ->
  fixed_fft Rops Rtrig d p x = Ok (dft_plus (padded (2 ^ p) x)).
Proof. exact @fixed_fft_is. Qed.
Print Assumptions fixed_fft_partial.
Example fixed_fft_ex : forall a b c, fixed_fft Rops Rtrig 3 2 [a; b; c] = Ok (dft_plus [a; b; c; Cx 0 0]).
Proof. intros a b c. apply (fixed_fft_is 3 2 [a; b; c]). lia. Qed.

Theorem fixed_ifft_partial : forall d p x, (p < d)%nat -> length x = (2 ^ p)%nat ->
  fixed_ifft Rops Rtrig d p x =
  Ok (map (fun z => Cx (re z / INR (length x)) (im z / INR (length x))) (dft x)).
Proof. exact @fixed_ifft_is. Qed.
Print Assumptions fixed_ifft_partial.

Theorem fixed_fft_round_trip_partial : forall d p x, (p < d)%nat -> length x = (2 ^ p)%nat ->
  bind (fixed_fft Rops Rtrig d p x) (fixed_ifft Rops Rtrig d p) = Ok x.
Proof. exact @fixed_round. Qed.
Print Assumptions fixed_fft_round_trip_partial.
Example fixed_fft_round_trip_ex : forall a b c d,
  bind (fixed_fft Rops Rtrig 3 2 [a; b; c; d]) (fixed_ifft Rops Rtrig 3 2) = Ok [a; b; c; d].
Proof. intros a b c d. apply fixed_round; [lia|reflexivity]. Qed.

Theorem fixed_fft_sign_refuted :
  exists x y, length x = (2 ^ 2)%nat /\ fixed_fft Rops Rtrig 3 2 x = Ok y /\
    fft Rops Rtrig 16 x = Ok (dft x) /\ nth 1 y (Cx 0 0) = Cx 0 1 /\
    nth 1 (dft x) (Cx 0 0) = Cx 0 (-1).
Proof. exact @fixed_fft_refuted. Qed.
Print Assumptions fixed_fft_sign_refuted.
