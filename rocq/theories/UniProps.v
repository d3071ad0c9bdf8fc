(** The theorems about the uniform integer distributions, C91-C94. *)
From Coq Require Import List Arith ZArith Bool Lia.
From Verif Require Import Base BitModel BitSpec ShaModel LcgModel LcgSpec LfsrProof LfsrModel LfsrSpec UniModel UniSpec UniProof UniProof2.
Import ListNotations.
Open Scope Z_scope.

(** ** C91 *)
Theorem uniform_int_range_partial : forall St step b bmin bmax I, engine_ok St step bmin bmax b I ->
  forall cst r k t lo hi s, uni_good b bmin bmax t lo hi -> I s ->
  match uniform_int St step b bmin bmax cst r k t lo hi s with
  | Ok (x, s') => lo <= x <= hi /\ I s'
  | UB => False
  | Fuel => True
  end.
Proof. exact uniform_int_range_lemma. Qed.
Print Assumptions uniform_int_range_partial.
(** a 32-bit engine, long long results and a negative lower bound: -1 comes out as 2^32 - 1 *)
Theorem uniform_int_negative_refuted : exists bmin bmax t lo hi l x, forall cst,
  is_val u32 bmin /\ is_val u32 bmax /\ bmin < bmax /\ is_val t lo /\ is_val t hi /\ lo < hi /\ Forall (fun e => bmin <= e <= bmax) l /\
  uniform_int (list Z) tape u32 bmin bmax cst 2 2 t lo hi l = Ok (x, []) /\ hi < x.
Proof.
  exists 0, 4294967295, (Ity true 3), (-5), 5, [1700000000], 4294967295. intros cst; destruct cst;
  repeat (split; [first [apply Forall_forall; cbn [In]; lia | vm_compute; repeat split; congruence]|]); lia.
Qed.
Print Assumptions uniform_int_negative_refuted.
(** an engine of 16 values and [1, 256]: the lower bound is not added *)
Theorem uniform_int_power_refuted : exists bmin bmax lo hi l x, forall cst,
  is_val u32 bmin /\ is_val u32 bmax /\ bmin < bmax /\ is_val i32 lo /\ is_val i32 hi /\ lo < hi /\ Forall (fun e => bmin <= e <= bmax) l /\
  uniform_int (list Z) tape u32 bmin bmax cst 2 3 i32 lo hi l = Ok (x, []) /\ x < lo.
Proof.
  exists 0, 15, 1, 256, [0; 0], 0. intros cst; destruct cst;
  repeat (split; [first [apply Forall_forall; cbn [In]; lia | vm_compute; repeat split; congruence]|]); lia.
Qed.
Print Assumptions uniform_int_power_refuted.

(** a die; taus88 with more values than the engine has *)
Example c91_case :
  (forall md, engine_ok (Z * Z * Z) (taus88_step 2 md) 0 (2 ^ 32 - 1) u32 (fun e => let '(a, b, c) := e in w32b a /\ w32b b /\ w32b c)) /\
  uni_good u32 0 (2 ^ 32 - 1) i32 (-3) 3 /\ uni_good u32 0 (2 ^ 32 - 1) (Ity true 3) (-5) (2 ^ 33) /\
  run (uniform_int Z (fun s => y <- minstd_rand0 2 u32 s ;; Ok (y, y)) u32 1 2147483646 true 2 10 i32 (-3) 3) 10 1 =
    Ok [-3; -3; 2; 0; 0; -2; -3; 1; 1; 3] /\
  run (uniform_int (Z * Z * Z) (taus88_step 2 false) u32 0 4294967295 true 2 10 u64 5 10000000000000000000) 3 (341, 341, 341) =
    Ok [6053947315053745417; 484207362732009859; 6718806907047750394].
Proof.
  split; [intros md; exact (taus88_engine 2 md (le_n 2))|]. split; [|split; [|split; vm_compute; reflexivity]].
  - split; [vm_compute; split; congruence|]. split; [vm_compute; split; congruence|]. split; [lia|].
    split; [right; left; vm_compute; congruence|right; left; vm_compute; congruence].
  - split; [vm_compute; split; congruence|]. split; [vm_compute; split; congruence|]. split; [lia|].
    split; [right; right; vm_compute; reflexivity|right; right]. intros j J H. unfold beta in H.
    replace (2 ^ 32 - 1 - 0 + 1) with (2 ^ 32) in H by lia. rewrite <- Z.pow_mul_r in H by lia.
    assert (A : 2 ^ (32 * j) < 2 ^ 34) by lia. assert (C : 2 ^ 33 < 2 ^ (32 * j)) by lia.
    apply Z.pow_lt_mono_r_iff in A; [|lia|lia]. apply Z.pow_lt_mono_r_iff in C; lia.
Qed.

(** ** C92 *)
Theorem uniform_int_correct_partial : forall St step b bmin bmax I, engine_ok St step bmin bmax b I ->
  forall cst t lo hi s x s', uni_good b bmin bmax t lo hi -> I s ->
  (exists r k, uniform_int St step b bmin bmax cst r k t lo hi s = Ok (x, s')) <->
  uniform St step bmin bmax cst (hi - lo + 1) s (x - lo) s'.
Proof. exact uniform_int_lemma. Qed.
Print Assumptions uniform_int_correct_partial.
Theorem uniform_int_unbiased_partial : forall b bmin bmax cst t lo hi x y,
  is_val b bmin -> is_val b bmax -> bmin < bmax -> uni_good b bmin bmax t lo hi -> lo <= x <= hi -> lo <= y <= hi ->
  exists P, pairs_up P
    (fun l => Forall (fun e => bmin <= e <= bmax) l /\ exists r k, uniform_int (list Z) tape b bmin bmax cst r k t lo hi l = Ok (x, []))
    (fun l => Forall (fun e => bmin <= e <= bmax) l /\ exists r k, uniform_int (list Z) tape b bmin bmax cst r k t lo hi l = Ok (y, []))
  /\ forall l l', P l l' -> length l = length l'.
Proof. exact uniform_int_unbiased_lemma. Qed.
Print Assumptions uniform_int_unbiased_partial.

(** six results from ten engine values: 0, ..., 5 are accepted; thirty-five from ten *)
Example c92_case :
  uni_good u32 0 9 i32 1 6 /\
  uniform_int (list Z) tape u32 0 9 true 1 5 i32 1 6 [9; 6; 3] = Ok (4, []) /\
  uniform_int (list Z) tape u32 0 9 true 1 5 i32 1 6 [9; 6; 0] = Ok (1, []) /\
  uniform_int (list Z) tape u32 0 9 true 2 5 i32 0 34 [9; 4] = Ok (29, []) /\
  uniform_int (list Z) tape u32 0 9 true 2 5 i32 0 34 [9; 7; 3; 4] = Ok (23, []).
Proof.
  split; [|repeat split; vm_compute; reflexivity].
  split; [vm_compute; split; congruence|]. split; [vm_compute; split; congruence|]. split; [lia|].
  split; [left; lia|right; left; vm_compute; congruence].
Qed.

(** ** C93 *)
Theorem uniform_int_paths_partial : forall St step b bmin bmax I t lo hi s x s', engine_ok St step bmin bmax b I ->
  uni_good b bmin bmax t lo hi -> I s -> (forall j, 0 <= j -> (hi - lo) / beta bmin bmax ^ j <> bmax - bmin) ->
  (exists r k, uniform_int St step b bmin bmax true r k t lo hi s = Ok (x, s')) <->
  (exists r k, uniform_int St step b bmin bmax false r k t lo hi s = Ok (x, s')).
Proof. exact uniform_int_paths_lemma. Qed.
Print Assumptions uniform_int_paths_partial.
(** if there are as many results as engine values, the non-const operator() throws one away *)
Theorem uniform_int_paths_refuted : exists bmin bmax lo hi l x l' y l'',
  uni_good u32 bmin bmax i32 lo hi /\ Forall (fun e => bmin <= e <= bmax) l /\
  uniform_int (list Z) tape u32 bmin bmax true 1 1 i32 lo hi l = Ok (x, l') /\
  uniform_int (list Z) tape u32 bmin bmax false 1 1 i32 lo hi l = Ok (y, l'') /\ x <> y /\ l' <> l''.
Proof.
  exists 1, 6, 1, 6, [3; 4], 3, [4], 4, []. split.
  - split; [vm_compute; split; congruence|]. split; [vm_compute; split; congruence|]. split; [lia|].
    split; [left; lia|right; left; vm_compute; congruence].
  - split; [repeat constructor; lia|]. split; [vm_compute; reflexivity|]. split; [vm_compute; reflexivity|]. split; congruence.
Qed.
Print Assumptions uniform_int_paths_refuted.

Example c93_case :
  (forall j, 0 <= j -> (6 - 1) / beta 0 9 ^ j <> 9 - 0) /\
  uniform_int (list Z) tape u32 0 9 true 1 5 i32 1 6 [9; 6; 3] = Ok (4, []) /\
  uniform_int (list Z) tape u32 0 9 false 1 5 i32 1 6 [9; 6; 3] = Ok (4, []).
Proof.
  split; [|split; vm_compute; reflexivity]. intros j J. assert (0 < beta 0 9 ^ j) by (apply Z.pow_pos_nonneg; [vm_compute; reflexivity|exact J]).
  pose proof (Z.div_le_upper_bound (6 - 1) (beta 0 9 ^ j) 5 ltac:(lia) ltac:(lia)). lia.
Qed.

(** ** C94 *)
Theorem smallint_correct_partial : forall St step b bmin bmax I, engine_ok St step bmin bmax b I ->
  forall cst t lo hi s d s', is_val t lo -> is_val t hi -> lo <= hi ->
  ((bmax - bmin) mod 2 ^ wid t <= hi - lo -> bmax - bmin <= hi - lo) ->
  (cst = true \/ sgn b = false \/ hi - lo <> tmax b \/ bmax - bmin <= hi - lo) ->
  draws1 St step bmin bmax s d s' ->
  smallint St step b bmin bmax cst t lo hi s = Ok (small bmin bmax lo hi d, s') /\ lo <= small bmin bmax lo hi d <= hi.
Proof. exact smallint_lemma. Qed.
Print Assumptions smallint_correct_partial.
Theorem smallint_balanced : forall bmin bmax lo hi x, bmin < bmax -> lo <= hi -> hi - lo < bmax - bmin -> lo <= x <= hi ->
  exists c, beta bmin bmax / (hi - lo + 1) <= c <= beta bmin bmax / (hi - lo + 1) + 1 /\
  forall d, 0 <= d < beta bmin bmax -> (small bmin bmax lo hi d = x <-> exists j, 0 <= j < c /\ d = x - lo + (hi - lo + 1) * j).
Proof. exact small_count_lemma. Qed.
Print Assumptions smallint_balanced.
(** the range of the engine is computed in the result type: 2^32 becomes 0 *)
Theorem smallint_range_refuted : exists bmin bmax lo hi l x, forall cst,
  is_val u64 bmin /\ is_val u64 bmax /\ bmin < bmax /\ is_val i32 lo /\ is_val i32 hi /\ lo < hi /\ Forall (fun e => bmin <= e <= bmax) l /\
  smallint (list Z) tape u64 bmin bmax cst i32 lo hi l = Ok (x, []) /\ hi < x.
Proof.
  exists 0, 4294967296, 0, 9, [100], 100. intros cst; destruct cst;
  repeat (split; [first [apply Forall_forall; cbn [In]; lia | vm_compute; repeat split; congruence]|]); lia.
Qed.
Print Assumptions smallint_range_refuted.
(** range + 1 overflows in a signed engine type *)
Theorem smallint_overflow_refuted : exists bmin bmax lo hi l,
  is_val i32 bmin /\ is_val i32 bmax /\ bmin < bmax /\ is_val i32 lo /\ is_val i32 hi /\ lo < hi /\ Forall (fun e => bmin <= e <= bmax) l /\
  smallint (list Z) tape i32 bmin bmax false i32 lo hi l = UB.
Proof.
  exists (-2147483648), 2147483647, 0, 2147483647, [100].
  repeat (split; [first [apply Forall_forall; cbn [In]; lia | vm_compute; repeat split; congruence]|]). vm_compute. reflexivity.
Qed.
Print Assumptions smallint_overflow_refuted.

Example c94_case :
  run (smallint Z (fun s => y <- minstd_rand0 2 u32 s ;; Ok (y, y)) u32 1 2147483646 false i32 (-3) 3) 6 1 = Ok [3; 3; -2; 2; 2; 2] /\
  small 0 9 1 6 7 = 2 /\ small 0 9 1 20 7 = 8.
Proof. repeat split; vm_compute; reflexivity. Qed.
