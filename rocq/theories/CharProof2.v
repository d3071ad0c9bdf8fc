(** Proofs about CharModel: writing integers, and reading them back. *)
From Coq Require Import List Arith ZArith Bool Lia ZifyBool ZifyNat.
From Verif Require Import Base BaseProof BitModel BitSpec BitProof ShaModel StrSpec StrProof StrProof3 CharModel CharSpec CharProof.
Import ListNotations.
Open Scope Z_scope.

(** ** Powers and digit counts *)
Lemma pow_S b e : 1 <= b -> b ^ Z.of_nat (S e) = b * b ^ Z.of_nat e.
Proof. intros. rewrite Nat2Z.inj_succ, Z.pow_succ_r by lia. reflexivity. Qed.
Lemma pow_ge1 b e : 1 <= b -> 1 <= b ^ Z.of_nat e.
Proof. intros H. induction e; [cbn; lia|]. rewrite pow_S by lia. nia. Qed.

Lemma int_pow_ok il t b e : 1 <= b -> b ^ Z.of_nat e <= tmax t -> int_pow il t b e = Ok (b ^ Z.of_nat e).
Proof.
  intros B. induction e as [|e IH]; intros H; [reflexivity|]. cbn [int_pow]. pose proof (pow_ge1 b e B).
  rewrite pow_S in * by lia. rewrite IH by nia. cbn [bind]. rewrite arith_pos by nia. cbn [bind]. f_equal.
  apply conv_id, pos_val. nia.
Qed.

Lemma quot_abs v b : 2 <= b -> Z.abs (Z.quot v b) = Z.abs v / b.
Proof.
  intros B. destruct (Z_lt_ge_dec v 0).
  - replace v with (- - v) at 1 by lia. rewrite Z.quot_opp_l, Z.abs_opp by lia. rewrite Z.quot_div_nonneg by lia.
    rewrite Z.abs_eq by (apply Z.div_pos; lia). f_equal. lia.
  - rewrite Z.quot_div_nonneg by lia. rewrite Z.abs_eq by (apply Z.div_pos; lia). f_equal. lia.
Qed.

(** [n] is the number of digits of [a] in base [b]; 0 has none *)
Definition ndig (b a : Z) (n : nat) : Prop := a < b ^ Z.of_nat n /\ (n <> 0%nat -> b ^ Z.of_nat (n - 1) <= a).

Lemma int_digits_impl_ok b : 2 <= b -> forall k r v, Z.abs v < b ^ Z.of_nat k -> (k < r)%nat ->
  exists n, int_digits_impl r b v = Ok n /\ ndig b (Z.abs v) n.
Proof.
  intros B. induction k as [|k IH]; intros r v H R; (destruct r as [|r]; [lia|]); cbn [int_digits_impl].
  - destruct (Z.eqb_spec v 0) as [V0|V0]; [|cbn in H; lia]. subst. exists 0%nat. split; [reflexivity|]. split; [cbn; lia|easy].
  - destruct (Z.eqb_spec v 0) as [V0|V0].
    + subst. exists 0%nat. split; [reflexivity|]. split; [cbn; lia|easy].
    + rewrite pow_S in H by lia. destruct (IH r (Z.quot v b)) as (n & E & N1 & N2); [|lia|].
      { rewrite quot_abs by lia. apply Z.div_lt_upper_bound; lia. }
      rewrite E. cbn [bind]. exists (S n). split; [reflexivity|]. rewrite quot_abs in * by lia.
      pose proof (Z.mod_pos_bound (Z.abs v) b ltac:(lia)). pose proof (Z.div_mod (Z.abs v) b ltac:(lia)). split.
      * rewrite pow_S by lia. nia.
      * intros _. replace (S n - 1)%nat with n by lia. destruct n as [|n]; [cbn; lia|].
        specialize (N2 ltac:(lia)). replace (S n - 1)%nat with n in N2 by lia. rewrite pow_S by lia. nia.
Qed.

(** at least one digit *)
Lemma int_digits_ok b k r v : 2 <= b -> Z.abs v < b ^ Z.of_nat k -> (k < r)%nat ->
  exists n, int_digits r b v = Ok n /\ (1 <= n)%nat /\ Z.abs v < b ^ Z.of_nat n /\ ((1 < n)%nat -> b ^ Z.of_nat (n - 1) <= Z.abs v) /\
    (v <> 0 -> b ^ Z.of_nat (n - 1) <= Z.abs v).
Proof.
  intros B H R. unfold int_digits. destruct (Z.eqb_spec v 0) as [V0|V0].
  - subst. exists 1%nat. split; [reflexivity|]. repeat split; try lia.
  - destruct (int_digits_impl_ok b B (S k) (S r) v) as (n & E & N1 & N2); [rewrite pow_S by lia; pose proof (pow_ge1 b k); nia|lia|].
    cbn [int_digits_impl] in E. destruct (Z.eqb_spec v 0) as [V1|V1]; [lia|]. exists n. split; [exact E|].
    assert (n <> 0%nat) by (intros ->; cbn in N1; lia). repeat split; auto; lia.
Qed.

(** ** The digits *)
Lemma digit_at_ok il t b v i : 2 <= b -> b ^ Z.of_nat i <= tmax t ->
  int_digit_at il t b v i = Ok (Z.abs v / b ^ Z.of_nat i mod b).
Proof.
  intros B H. unfold int_digit_at. rewrite int_pow_ok by lia. cbn [bind]. f_equal. pose proof (pow_ge1 b i ltac:(lia)) as P.
  set (p := b ^ Z.of_nat i) in *.
  assert (Q : 0 <= Z.abs v / p) by (apply Z.div_pos; lia).
  destruct (Z.ltb_spec v 0).
  - replace v with (- Z.abs v) by lia. rewrite Z.quot_opp_l, Z.rem_opp_l by lia. rewrite Z.abs_opp, Z.abs_involutive, Z.quot_div_nonneg by lia.
    rewrite Z.rem_mod_nonneg by lia. lia.
  - replace (Z.abs v) with v by lia. rewrite Z.quot_div_nonneg, Z.rem_mod_nonneg by (try apply Z.div_pos; lia). reflexivity.
Qed.

(** the digit characters of the positions [i] .. [digits - 1], most significant first *)
Definition dchars (b a : Z) (digits i n : nat) : list Z :=
  map (fun j => 48 + a / b ^ Z.of_nat (digits - 1 - j) mod b) (seq i n).

Lemma digit_chars_ok il ct t b v digits : 2 <= b <= 10 -> (1 <= digits)%nat -> b ^ Z.of_nat (digits - 1) <= tmax t ->
  forall n i, digit_chars il ct t b v digits i n =
    Ok (dchars b (Z.abs v) digits i (Nat.min n (digits - i)) ++ repeat 0 (n - (digits - i))).
Proof.
  intros B D T. induction n as [|n IH]; intros i; [reflexivity|]. cbn [digit_chars].
  destruct (Nat.ltb_spec i digits).
  - rewrite digit_at_ok; [|lia|].
    2:{ eapply Z.le_trans; [|exact T]. apply Z.pow_le_mono_r; lia. }
    cbn [bind]. unfold int_to_char. pose proof (Z.mod_pos_bound (Z.abs v / b ^ Z.of_nat (digits - 1 - i)) b ltac:(lia)) as M.
    set (x := Z.abs v / b ^ Z.of_nat (digits - 1 - i) mod b) in *.
    destruct (Z.leb_spec 0 x); [|lia]. destruct (Z.ltb_spec x 10); [|lia]. cbn [andb bind].
    rewrite small_conv by lia. rewrite IH. cbn [bind]. f_equal.
    replace (Nat.min (S n) (digits - i)) with (S (Nat.min n (digits - S i))) by lia.
    replace (S n - (digits - i))%nat with (n - (digits - S i))%nat by lia. reflexivity.
  - cbn [bind]. rewrite IH. cbn [bind]. f_equal.
    replace (digits - S i)%nat with 0%nat by lia. replace (digits - i)%nat with 0%nat by lia.
    rewrite !Nat.min_0_r, !Nat.sub_0_r. reflexivity.
Qed.

Lemma weight_digit c b : 48 <= c < 48 + b -> b <= 10 -> weight c = c - 48.
Proof. intros. unfold weight. destruct ((48 <=? c) && (c <=? 57)) eqn:E; [reflexivity|lia]. Qed.

Lemma value_snoc b ds c : value b (ds ++ [c]) = value b ds * b + weight c.
Proof. unfold value. rewrite fold_left_app. reflexivity. Qed.

Lemma dchars_value b a digits : 2 <= b <= 10 -> 0 <= a < b ^ Z.of_nat digits -> forall n, (n <= digits)%nat ->
  value b (dchars b a digits 0 n) = a / b ^ Z.of_nat (digits - n).
Proof.
  intros B A. induction n as [|n IH]; intros N.
  - rewrite Nat.sub_0_r. cbn. symmetry. apply Z.div_small. lia.
  - unfold dchars in *. rewrite seq_S, map_app. cbn [map Nat.add]. rewrite value_snoc, IH by lia.
    replace (digits - n)%nat with (S (digits - S n)) by lia. replace (digits - 1 - n)%nat with (digits - S n)%nat by lia.
    set (p := b ^ Z.of_nat (digits - S n)). rewrite pow_S by lia. fold p.
    pose proof (pow_ge1 b (digits - S n) ltac:(lia)) as P. fold p in P.
    pose proof (Z.mod_pos_bound (a / p) b ltac:(lia)).
    rewrite (weight_digit _ b) by lia. rewrite (Z.mul_comm b p), <- Z.div_div by lia.
    pose proof (Z.div_mod (a / p) b ltac:(lia)). lia.
Qed.
Lemma dchars_digits b a digits i n : 2 <= b -> Forall (fun c => 48 <= c < 48 + b) (dchars b a digits i n).
Proof.
  intros B. unfold dchars. apply Forall_forall. intros c I. apply in_map_iff in I. destruct I as (j & <- & _).
  pose proof (Z.mod_pos_bound (a / b ^ Z.of_nat (digits - 1 - j)) b ltac:(lia)). lia.
Qed.

(** ** Enough room *)
Lemma room t base : std_type t -> 2 <= base <= 10 ->
  exists nd, integer_digits t base = Some nd /\ 0 <= nd <= 64 /\ tmax t < base ^ nd /\ (base = 10 -> tmax t + 1 < base ^ nd).
Proof.
  intros S B. destruct t as [sg l]. unfold std_type in S. cbn [lg] in S.
  assert (C : base = 2 \/ base = 3 \/ base = 4 \/ base = 5 \/ base = 6 \/ base = 7 \/ base = 8 \/ base = 9 \/ base = 10) by lia.
  assert (CL : l = 0%nat \/ l = 1%nat \/ l = 2%nat \/ l = 3%nat) by lia.
  destruct sg; destruct CL as [-> | [-> | [-> | ->]]]; (repeat (destruct C as [-> | C])); try subst base;
    (eexists; split; [reflexivity|]; vm_compute; intuition discriminate).
Qed.

Lemma raw_args cap n (args : list Z) : (n <= length args)%nat -> (forall i, (n <= i)%nat -> nth i args 0 = 0) ->
  raw_construct cap n args = (n, args ++ repeat 0 (cap + 1 - length args)).
Proof.
  intros L Z0. unfold raw_construct. do 2 f_equal.
  apply (nth_ext _ _ 0 0); [now rewrite map_length, seq_length|]. intros i I. rewrite map_length, seq_length in I.
  set (f := fun i => if Nat.ltb i n then nth i args 0 else 0).
  rewrite (nth_indep _ 0 (f 0%nat)) by now rewrite map_length, seq_length.
  rewrite map_nth, seq_nth by lia. unfold f. cbn [Nat.add]. destruct (Nat.ltb_spec i n); [reflexivity|]. symmetry. now apply Z0.
Qed.

Definition capacity (t : ity) (base : Z) : nat :=
  match integer_digits t base with Some nd => Z.to_nat nd + (if sgn t then 1 else 0) | None => 0 end.

Lemma nth_pad (s : list Z) k i : (length s <= i)%nat -> nth i (s ++ repeat 0 k) 0 = 0.
Proof.
  intros H. rewrite app_nth2 by lia. destruct (Nat.lt_ge_cases (i - length s) k).
  - apply (repeat_spec k). apply nth_In. now rewrite repeat_length.
  - apply nth_overflow. rewrite repeat_length. lia.
Qed.

Lemma int_to_string_lemma il ct t r base v : std_type t -> 2 <= base <= 10 -> is_val t v ->
  base = 10 \/ v <> tmin t \/ sgn t = false -> (65 < r)%nat ->
  exists s, int_to_string il ct t r base v = Ok (length s, s ++ repeat 0 (capacity t base + 1 - length s)) /\
    numeral base v s /\ (length s <= capacity t base)%nat.
Proof.
  intros ST B V E R. unfold int_to_string, capacity. destruct (room t base ST B) as (nd & -> & ND & RM & RM10).
  set (N := Z.to_nat nd). assert (NE : nd = Z.of_nat N) by lia. rewrite NE in ND, RM, RM10. clearbody N. clear NE nd.
  assert (A : Z.abs v < base ^ Z.of_nat N).
  { unfold is_val, tmax, tmin in *. pose proof (half_pos t). destruct (sgn t).
    - destruct E as [E | [E | E]]; [specialize (RM10 E); lia|lia|discriminate].
    - lia. }
  destruct (int_digits_ok base N r v ltac:(lia) A ltac:(lia)) as (n & -> & N1 & N2 & N3 & N4). cbn [bind].
  assert (NN : (n <= N)%nat).
  { destruct (Nat.le_gt_cases n N) as [L|L]; [exact L|]. destruct (Nat.le_gt_cases n 1).
    - assert (N = 0)%nat by lia. subst N. assert (n = 1)%nat by lia. pose proof (tmax_ge t). cbn in RM. lia.
    - specialize (N3 H). assert (base ^ Z.of_nat N <= base ^ Z.of_nat (n - 1)) by (apply Z.pow_le_mono_r; lia). lia. }
  assert (PT : base ^ Z.of_nat (n - 1) <= tmax t).
  { destruct (Nat.le_gt_cases n 1) as [L|L].
    - replace (n - 1)%nat with 0%nat by lia. cbn. pose proof (tmax_ge t). lia.
    - specialize (N3 L). assert (Q : Z.abs v <= tmax t \/ sgn t = true /\ Z.abs v = tmax t + 1 /\ base = 10).
      { unfold is_val, tmax, tmin in *. pose proof (half_pos t). destruct (sgn t); [|left; lia].
        destruct (Z.eq_dec v (- 2 ^ (wid t - 1))); [|left; lia]. right. destruct E as [E | [E | E]]; [|lia|discriminate]. lia. }
      destruct Q as [Q | (SG & Q & ->)]; [lia|].
      (* the power of ten is not the power of two *)
      destruct (Z.eq_dec (10 ^ Z.of_nat (n - 1)) (tmax t + 1)) as [Q2|Q2]; [|lia].
      exfalso. unfold tmax in Q2. rewrite SG in Q2. replace (2 ^ (wid t - 1) - 1 + 1) with (2 ^ (wid t - 1)) in Q2 by lia.
      destruct t as [sg l]. unfold std_type in ST. cbn [lg sgn] in *. subst sg.
      assert (MOD : 2 ^ (wid (Ity true l) - 1) mod 10 <> 0).
      { do 4 (destruct l as [|l]; [vm_compute; discriminate|]). lia. }
      apply MOD. rewrite <- Q2. replace (n - 1)%nat with (S (n - 2)) by lia. rewrite pow_S by lia.
      rewrite Z.mul_comm. apply Z.mod_mul. lia. }
  rewrite (digit_chars_ok il ct t base v n B N1 PT). cbn [bind]. rewrite Nat.sub_0_r, Nat.min_r by lia.
  set (ds := dchars base (Z.abs v) n 0 n). assert (LD : length ds = n) by (unfold ds, dchars; now rewrite map_length, seq_length).
  assert (VD : value base ds = Z.abs v).
  { unfold ds. rewrite dchars_value by (auto; lia). rewrite Nat.sub_diag. cbn [Z.of_nat]. rewrite Z.pow_0_r. apply Z.div_1_r. }
  assert (HD : match ds with [] => False | c :: ds' => c = 48 -> ds' = [] end).
  { unfold ds, dchars. destruct n as [|n]; [lia|]. cbn [seq map]. intros C. destruct n as [|n]; [reflexivity|]. exfalso.
    specialize (N3 ltac:(lia)). replace (S (S n) - 1 - 0)%nat with (S n) in C by lia. replace (S (S n) - 1)%nat with (S n) in N3 by lia.
    rewrite pow_S in N2 by lia. pose proof (pow_ge1 base (S n) ltac:(lia)) as P. set (p := base ^ Z.of_nat (S n)) in *.
    assert (1 <= Z.abs v / p) by (apply Z.div_le_lower_bound; lia). assert (Z.abs v / p < base) by (apply Z.div_lt_upper_bound; lia).
    rewrite Z.mod_small in C by lia. lia. }
  assert (NUM : numeral base v ((if v <? 0 then [45] else []) ++ ds)).
  { exists ds. split; [reflexivity|]. split; [apply dchars_digits; lia|]. split; [exact VD|exact HD]. }
  exists ((if v <? 0 then [45] else []) ++ ds). split; [|split; [exact NUM|]].
  - f_equal. destruct (Z.ltb_spec v 0).
    + cbn [app length]. rewrite LD. rewrite raw_args.
      * f_equal; [lia|]. cbn [app length]. rewrite app_length, repeat_length, LD. rewrite <- app_assoc, <- repeat_app. do 3 f_equal. destruct (sgn t); lia.
      * cbn [length]. rewrite app_length, LD. lia.
      * intros [|i] I; [lia|]. cbn [nth]. apply nth_pad. lia.
    + cbn [app length]. rewrite raw_args.
      * f_equal; [lia|]. rewrite app_length, repeat_length, LD. rewrite <- app_assoc, <- repeat_app. do 2 f_equal. destruct (sgn t); lia.
      * rewrite app_length, LD. lia.
      * intros i I. apply nth_pad. lia.
  - destruct (Z.ltb_spec v 0); cbn [app length]; rewrite LD; [|lia].
    unfold is_val in V. destruct (sgn t); [lia|lia].
Qed.

(** ** Reading back *)
Lemma numeral_cstr base v s k m : 2 <= base <= 10 -> numeral base v s -> (0 < k)%nat ->
  m = s ++ repeat 0 k -> cstr m 0 s /\ Forall character s.
Proof.
  intros B (ds & -> & F & _ & _) K ->. set (s := (if v <? 0 then [45] else []) ++ ds).
  assert (FS : Forall (fun c => 1 <= c < 128) s).
  { unfold s. apply Forall_app. split; [destruct (v <? 0); repeat constructor; lia|]. eapply Forall_impl; [|exact F]. cbn beta. intros. lia. }
  split; [|eapply Forall_impl; [|exact FS]; unfold character; cbn beta; lia].
  split; [|split].
  - intros i x E. cbn [Nat.add]. rewrite nth_error_app1; [exact E|]. apply nth_error_Some. now rewrite E.
  - cbn [Nat.add]. rewrite nth_error_app2, Nat.sub_diag by lia. destruct k; [lia|reflexivity].
  - intros I. rewrite Forall_forall in FS. specialize (FS 0 I). lia.
Qed.

Lemma run_id f s : Forall (fun c => f c = true) s -> run f s = s.
Proof. induction 1 as [|c s H _ IH]; [reflexivity|]. cbn [run]. now rewrite H, IH. Qed.

Lemma numeral_denotes base v s : 2 <= base <= 10 -> numeral base v s ->
  denotes base s = (v <? 0, Z.abs v) /\ zero_x (tail_of s) = false.
Proof.
  intros B (ds & -> & F & V & H). destruct ds as [|c ds]; [easy|].
  assert (FC : 48 <= c < 48 + base) by now inversion F.
  assert (SG : sign (skip is_sp ((if v <? 0 then [45] else []) ++ c :: ds)) = (v <? 0, c :: ds)).
  { destruct (v <? 0); cbn [app skip].
    - change (is_sp 45) with false. cbv iota. reflexivity.
    - replace (is_sp c) with false by (unfold is_sp; lia). cbn [sign]. destruct (Z.eqb_spec c 45); [lia|]. destruct (Z.eqb_spec c 43); [lia|]. reflexivity. }
  assert (ZX : zero_x (c :: ds) = false).
  { destruct ds as [|c1 ds]; [reflexivity|]. cbn [zero_x]. inversion F as [|? ? _ F']; subst. inversion F'; subst. lia. }
  unfold denotes, tail_of. rewrite SG. cbn [snd]. split; [|exact ZX]. f_equal.
  unfold digits_of, radix, hex_form. rewrite ZX. destruct (Z.eqb_spec base 0); [lia|]. destruct (Z.eqb_spec base 16); [lia|]. cbn [andb].
  rewrite run_id; [exact V|]. eapply Forall_impl; [|exact F]. cbn beta. intros a Ha. unfold is_dig. rewrite (weight_digit a base) by lia. lia.
Qed.

Lemma round_trip_lemma il ct t r r2 base v : std_type t -> 2 <= base <= 10 -> is_val t v ->
  base = 10 \/ v <> tmin t \/ sgn t = false -> v <> - tmax t -> (65 < r)%nat ->
  (capacity t base + 1 < r2)%nat ->
  exists n m, int_to_string il ct t r base v = Ok (n, m) /\ str_to_int il t r2 m 0 base = Ok v.
Proof.
  intros ST B V E NM R R2. destruct (int_to_string_lemma il ct t r base v ST B V E R) as (s & I & N & L).
  eexists _, _. split; [exact I|].
  destruct (numeral_cstr base v s (capacity t base + 1 - length s) _ B N ltac:(lia) eq_refl) as [CS CH].
  destruct (numeral_denotes base v s B N) as [D ZX]. assert (BO : base_ok base) by (right; lia).
  destruct (sgn t) eqn:SG.
  - rewrite str_to_int_signed_lemma with (s := s); auto; [|lia|].
    + f_equal. unfold c_strtol. rewrite D. unfold is_val, tmin, tmax in *. rewrite SG in *. destruct (Z.ltb_spec v 0); lia.
    + rewrite D. intros Q. injection Q as Q1 Q2. lia.
  - unfold is_val in V. rewrite SG in V. rewrite str_to_int_unsigned_lemma with (s := s); auto; [|lia|].
    + f_equal. unfold c_strtoul. rewrite D. unfold tmax. rewrite SG. destruct (Z.ltb_spec (2 ^ wid t - 1) (Z.abs v)); [lia|].
      destruct (Z.ltb_spec v 0); lia.
    + rewrite D. cbn [fst]. lia.
Qed.
Lemma round_trip_minus_max_lemma il ct t r r2 base : sgn t = true -> std_type t -> 2 <= base <= 10 -> (65 < r)%nat ->
  (capacity t base + 1 < r2)%nat ->
  exists n m, int_to_string il ct t r base (- tmax t) = Ok (n, m) /\ str_to_int il t r2 m 0 base = Ok (tmin t) /\ tmin t <> - tmax t.
Proof.
  intros SG ST B R R2. pose proof (half_pos t) as HP. pose proof (tmax_ge t) as T.
  destruct (int_to_string_lemma il ct t r base (- tmax t) ST B) as (s & I & N & L).
  { apply neg_val; [exact SG|lia]. } { right. left. unfold tmin, tmax. rewrite SG. lia. } { exact R. }
  eexists _, _. split; [exact I|].
  destruct (numeral_cstr base _ s (capacity t base + 1 - length s) _ B N ltac:(lia) eq_refl) as [CS CH].
  destruct (numeral_denotes base _ s B N) as [D ZX]. assert (BO : base_ok base) by (right; lia).
  edestruct (str_to_int_minus_max_lemma il t base) as (X & _ & Y); [exact SG|exact BO|exact CH|exact CS| |auto| |split; [exact X|exact Y]]; [lia|].
  rewrite D. destruct (Z.ltb_spec (- tmax t) 0); [|lia]. f_equal. lia.
Qed.

(** the most negative value does not fit in base 2 *)
Lemma to_string_min_lemma ct t r : sgn t = true -> std_type t -> (70 < r)%nat -> int_to_string 2 ct t r 2 (tmin t) = UB.
Proof.
  intros SG ST R. assert (A : Z.abs (tmin t) < 2 ^ Z.of_nat 64).
  { destruct t as [sg l]. cbn [sgn] in SG. subst sg. unfold std_type in ST. cbn [lg] in ST. do 4 (destruct l as [|l]; [vm_compute; reflexivity|]). lia. }
  destruct (int_digits_ok 2 64 r (tmin t) ltac:(lia) A ltac:(lia)) as (n & E & N1 & N2 & N3 & N4).
  unfold int_to_string. rewrite E.
  assert (P : tmin t <> 0) by (unfold tmin; rewrite SG; pose proof (half_pos t); lia). specialize (N4 P).
  assert (NW : Z.of_nat n = wid t).
  { pose proof (half_pos t). pose proof (wid_ge t). assert (AB : Z.abs (tmin t) = 2 ^ (wid t - 1)) by (unfold tmin; rewrite SG; lia). rewrite AB in *.
    apply Z.pow_lt_mono_r_iff in N2; [|lia|lia]. apply Z.pow_le_mono_r_iff in N4; [|lia|lia]. lia. }
  destruct t as [sg l]. cbn [sgn] in SG. subst sg. unfold std_type in ST. cbn [lg] in ST.
  assert (C : l = 0%nat \/ l = 1%nat \/ l = 2%nat \/ l = 3%nat) by lia.
  destruct C as [-> | [-> | [-> | ->]]].
  - change (Z.of_nat n = 8) in NW. assert (n = 8%nat) by lia. subst n. vm_compute. reflexivity.
  - change (Z.of_nat n = 16) in NW. assert (n = 16%nat) by lia. subst n. vm_compute. reflexivity.
  - change (Z.of_nat n = 32) in NW. assert (n = 32%nat) by lia. subst n. vm_compute. reflexivity.
  - change (Z.of_nat n = 64) in NW. assert (n = 64%nat) by lia. subst n. vm_compute. reflexivity.
Qed.
Lemma to_string_letters_lemma il ct t r base v : std_type t -> 11 <= base <= 16 -> 10 <= v < base -> (1 < r)%nat ->
  int_to_string il ct t r base v = UB.
Proof.
  intros ST B V R. unfold int_to_string. destruct (integer_digits t base) as [nd|] eqn:E; [|reflexivity].
  unfold int_digits. destruct (Z.eqb_spec v 0) as [V0|V0]; [lia|]. destruct r as [|r]; [lia|]. cbn [int_digits_impl].
  rewrite Z.quot_small by lia. change (0 =? 0) with true. cbv iota. cbn [bind].
  assert (N : 1 <= nd).
  { destruct t as [sg l]. unfold std_type in ST. cbn [lg] in ST. revert E. clear - ST B.
    assert (C : base = 11 \/ base = 12 \/ base = 13 \/ base = 14 \/ base = 15 \/ base = 16) by lia.
    assert (CL : l = 0%nat \/ l = 1%nat \/ l = 2%nat \/ l = 3%nat) by lia.
    destruct sg; destruct CL as [-> | [-> | [-> | ->]]]; (repeat (destruct C as [-> | C])); try subst base;
      (intros E; injection E as <-; vm_compute; discriminate). }
  destruct (Z.to_nat nd) as [|k] eqn:K; [lia|]. cbn [digit_chars Nat.ltb Nat.leb Nat.sub]. unfold int_digit_at. cbn [int_pow bind].
  destruct (Z.ltb_spec v 0); [lia|]. rewrite Z.quot_1_r, Z.rem_small by lia. unfold int_to_char.
  destruct (Z.leb_spec 0 v); [|lia]. destruct (Z.ltb_spec v 10); [lia|]. reflexivity.
Qed.

(** ** digits_to_int *)
Lemma value_cons ds : forall v c, vfrom 10 (v + weight c) ds = weight c * 10 ^ Z.of_nat (length ds) + vfrom 10 v ds.
Proof.
  induction ds as [|d ds IH]; intros v c; [cbn; lia|]. cbn [vfrom fold_left length].
  change (fold_left _ ds ?w) with (vfrom 10 w ds). rewrite Nat2Z.inj_succ, Z.pow_succ_r by lia.
  assert (G : forall ds a b, vfrom 10 (a + b) ds = a * 10 ^ Z.of_nat (length ds) + vfrom 10 b ds).
  { clear. induction ds as [|d ds IH]; intros a b; [cbn; lia|]. cbn [vfrom fold_left length].
    change (fold_left _ ds ?w) with (vfrom 10 w ds). rewrite Nat2Z.inj_succ, Z.pow_succ_r by lia.
    replace ((a + b) * 10 + weight d) with (a * 10 + (b * 10 + weight d)) by lia. rewrite IH. lia. }
  replace ((v + weight c) * 10 + weight d) with (weight c * 10 + (v * 10 + weight d)) by lia. rewrite G. lia.
Qed.
Lemma digits_to_int_le cs : Forall Digit cs -> cs <> [] -> digits_to_int cs <= value 10 cs /\
  ((3 <= length cs)%nat -> hd 48 cs <> 48 -> digits_to_int cs < value 10 cs).
Proof.
  induction cs as [|c cs IH]; intros F N; [easy|]. inversion F as [|? ? FC FS]; subst. unfold Digit in FC.
  assert (WC : weight c = c - 48) by (unfold weight; destruct ((48 <=? c) && (c <=? 57)) eqn:E; [reflexivity|lia]).
  assert (V : value 10 (c :: cs) = (c - 48) * 10 ^ Z.of_nat (length cs) + value 10 cs).
  { rewrite <- WC. exact (value_cons cs 0 c). }
  rewrite V. destruct cs as [|c1 cs].
  - cbn. split; [lia|lia].
  - specialize (IH FS ltac:(discriminate)). destruct IH as [I1 I2].
    change (digits_to_int (c :: c1 :: cs)) with (10 * (c - 48) + digits_to_int (c1 :: cs)).
    cbn [length hd]. rewrite Nat2Z.inj_succ, Z.pow_succ_r by lia. pose proof (pow_ge1 10 (length cs) ltac:(lia)). split; [nia|].
    intros L H0. destruct cs as [|c2 cs]; [cbn in L; lia|]. cbn [length] in *. rewrite Nat2Z.inj_succ, Z.pow_succ_r in * by lia.
    pose proof (pow_ge1 10 (length cs) ltac:(lia)). nia.
Qed.
Lemma digits_to_int_short_lemma cs : Forall Digit cs -> (1 <= length cs <= 2)%nat -> digits_to_int cs = value 10 cs.
Proof.
  intros F L. assert (W : forall c, Digit c -> weight c = c - 48) by (intros c H; unfold weight, Digit in *; destruct ((48 <=? c) && (c <=? 57)) eqn:E; [reflexivity|lia]).
  destruct cs as [|c [|c1 [|c2 cs]]]; cbn [length] in L; try lia.
  - inversion F; subst. unfold value. cbn. rewrite W by assumption. lia.
  - inversion F as [|? ? F1 F2]; subst. inversion F2; subst. unfold value. cbn [fold_left digits_to_int]. rewrite !W by assumption. lia.
Qed.

(** ** Without the capacity *)
Lemma capacity_le t base : std_type t -> 2 <= base <= 10 -> (capacity t base <= 65)%nat.
Proof. intros S B. unfold capacity. destruct (room t base S B) as (nd & -> & ND & _). destruct (sgn t); lia. Qed.
Lemma int_to_string_lemma' il ct t r base v : std_type t -> 2 <= base <= 10 -> is_val t v ->
  base = 10 \/ v <> tmin t \/ sgn t = false -> (65 < r)%nat ->
  exists s k, int_to_string il ct t r base v = Ok (length s, s ++ repeat 0 (S k)) /\ numeral base v s.
Proof.
  intros ST B V E R. destruct (int_to_string_lemma il ct t r base v ST B V E R) as (s & H & N & L).
  exists s, (capacity t base - length s)%nat. split; [|exact N]. rewrite H. do 3 f_equal. f_equal. lia.
Qed.
Lemma round_trip_lemma' il ct t r base v : std_type t -> 2 <= base <= 10 -> is_val t v ->
  base = 10 \/ v <> tmin t \/ sgn t = false -> v <> - tmax t -> (70 < r)%nat ->
  exists n m, int_to_string il ct t r base v = Ok (n, m) /\ str_to_int il t r m 0 base = Ok v.
Proof. intros ST B V E N R. pose proof (capacity_le t base ST B). apply round_trip_lemma; auto; lia. Qed.
Lemma round_trip_minus_max_lemma' il ct t r base : sgn t = true -> std_type t -> 2 <= base <= 10 -> (70 < r)%nat ->
  exists n m, int_to_string il ct t r base (- tmax t) = Ok (n, m) /\ str_to_int il t r m 0 base = Ok (tmin t) /\ tmin t <> - tmax t.
Proof. intros S ST B R. pose proof (capacity_le t base ST B). apply round_trip_minus_max_lemma; auto; lia. Qed.
