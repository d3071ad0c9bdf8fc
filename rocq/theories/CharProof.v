(** Proofs about CharModel: character classes and integer parsing. *)
From Coq Require Import List Arith ZArith Bool Lia ZifyBool ZifyNat.
From Verif Require Import Base BaseProof BitModel BitSpec BitProof ShaModel StrSpec StrProof StrProof3 CharModel CharSpec.
Import ListNotations.
Open Scope Z_scope.

(** ** Classes *)
Lemma gv c : character c -> get_value c = if (0 <=? c) && (c <? 128) then nth (Z.to_nat c) table 0 else 0.
Proof.
  unfold character, get_value. intros H.
  assert (W : wid u64 = 64) by reflexivity.
  assert (E : conv u64 c = c mod 2 ^ 64) by reflexivity. rewrite E.
  destruct (Z_lt_ge_dec c 0).
  - replace (c mod 2 ^ 64) with (c + 2 ^ 64) by (rewrite <- (Z.mod_small (c + 2 ^ 64) (2 ^ 64)) by lia; now rewrite <- Z.add_mod_idemp_r, Z_mod_same_full, Z.add_0_r by lia).
    destruct (Z.ltb_spec (c + 2 ^ 64) 128); [lia|]. destruct (Z.leb_spec 0 c); [lia|]. reflexivity.
  - rewrite Z.mod_small by lia. destruct (Z.leb_spec 0 c); [|lia]. reflexivity.
Qed.

Lemma class_ok m (Pb : Z -> bool) c :
  forallb (fun i => Bool.eqb (negb (Z.land (nth i table 0) m =? 0)) (Pb (Z.of_nat i))) (seq 0 128) = true ->
  (Pb c = true -> 0 <= c < 128) -> character c -> has c m = Pb c.
Proof.
  intros F B C. unfold has. rewrite (gv c C). destruct (Z.leb_spec 0 c); cbn [andb]; cycle 1.
  { destruct (Pb c) eqn:E; [specialize (B eq_refl); lia|]. now rewrite Z.land_0_l. }
  destruct (Z.ltb_spec c 128); cycle 1.
  { destruct (Pb c) eqn:E; [specialize (B eq_refl); lia|]. now rewrite Z.land_0_l. }
  rewrite forallb_forall in F. specialize (F (Z.to_nat c)). rewrite in_seq, Z2Nat.id in F by lia.
  apply eqb_prop, F. lia.
Qed.

Ltac class Pb := intros H; unfold isalnum, isalpha, isblank, iscntrl, isgraph, isprint, ispunct, isxdigit;
  match goal with |- context [has _ ?m] => rewrite (class_ok m Pb _ eq_refl) end; [|lia|exact H];
  unfold Alnum, Alpha, Upper, Lower, Digit, Blank, Cntrl, Graph, Print, Punct, Space, Xdigit, Graph, Alnum, Alpha, Upper, Lower, Digit; lia.

Lemma isalnum_lemma c : character c -> isalnum c = true <-> Alnum c.
Proof. class (fun c => (65 <=? c) && (c <=? 90) || (97 <=? c) && (c <=? 122) || (48 <=? c) && (c <=? 57)). Qed.
Lemma isalpha_lemma c : character c -> isalpha c = true <-> Alpha c.
Proof. class (fun c => (65 <=? c) && (c <=? 90) || (97 <=? c) && (c <=? 122)). Qed.
Lemma isblank_lemma c : character c -> isblank c = true <-> Blank c.
Proof. class (fun c => (c =? 32) || (c =? 9)). Qed.
Lemma iscntrl_lemma c : character c -> iscntrl c = true <-> Cntrl c.
Proof. class (fun c => (0 <=? c) && (c <=? 31) || (c =? 127)). Qed.
Lemma isdigit_b c : character c -> isdigit c = (48 <=? c) && (c <=? 57).
Proof. intros H. apply (class_ok m_digit (fun c => (48 <=? c) && (c <=? 57)) _ eq_refl); [lia|exact H]. Qed.
Lemma isdigit_lemma c : character c -> isdigit c = true <-> Digit c.
Proof. intros H. rewrite isdigit_b by exact H. unfold Digit. lia. Qed.
Lemma isgraph_lemma c : character c -> isgraph c = true <-> Graph c.
Proof. class (fun c => (33 <=? c) && (c <=? 126)). Qed.
Lemma islower_b c : character c -> islower c = (97 <=? c) && (c <=? 122).
Proof. intros H. apply (class_ok m_lower (fun c => (97 <=? c) && (c <=? 122)) _ eq_refl); [lia|exact H]. Qed.
Lemma islower_lemma c : character c -> islower c = true <-> Lower c.
Proof. intros H. rewrite islower_b by exact H. unfold Lower. lia. Qed.
Lemma isprint_lemma c : character c -> isprint c = true <-> Print c.
Proof. class (fun c => (32 <=? c) && (c <=? 126)). Qed.
Lemma ispunct_lemma c : character c -> ispunct c = true <-> Punct c.
Proof.
  class (fun c => (33 <=? c) && (c <=? 126) && negb ((65 <=? c) && (c <=? 90) || (97 <=? c) && (c <=? 122) || (48 <=? c) && (c <=? 57))).
Qed.
Lemma isspace_b c : character c -> isspace c = is_sp c.
Proof. intros H. apply (class_ok m_space is_sp _ eq_refl); [unfold is_sp; lia|exact H]. Qed.
Lemma isspace_lemma c : character c -> isspace c = true <-> Space c.
Proof. intros H. rewrite isspace_b by exact H. unfold Space, is_sp. lia. Qed.
Lemma isupper_b c : character c -> isupper c = (65 <=? c) && (c <=? 90).
Proof. intros H. apply (class_ok m_upper (fun c => (65 <=? c) && (c <=? 90)) _ eq_refl); [lia|exact H]. Qed.
Lemma isupper_lemma c : character c -> isupper c = true <-> Upper c.
Proof. intros H. rewrite isupper_b by exact H. unfold Upper. lia. Qed.
Lemma isxdigit_lemma c : character c -> isxdigit c = true <-> Xdigit c.
Proof. class (fun c => (48 <=? c) && (c <=? 57) || (65 <=? c) && (c <=? 70) || (97 <=? c) && (c <=? 102)). Qed.

Lemma small_val t x : 0 <= x < 128 -> is_val t x.
Proof.
  intros H. unfold is_val. pose proof (wid_ge t).
  assert (2 ^ 7 <= 2 ^ (wid t - 1)) by (apply Z.pow_le_mono_r; lia). pose proof (wid_half t).
  change (2 ^ 7) with 128 in *. destruct (sgn t); lia.
Qed.
Lemma small_conv t x : 0 <= x < 128 -> conv t x = x.
Proof. intros H. now apply conv_id, small_val. Qed.

Lemma tolower_lemma ct c : character c -> (Upper c -> tolower ct c = c + 32) /\ (~ Upper c -> tolower ct c = c).
Proof.
  intros H. unfold tolower. change (has c m_upper) with (isupper c). rewrite isupper_b by exact H. unfold Upper.
  destruct ((65 <=? c) && (c <=? 90)) eqn:E; split; intros; try lia; try reflexivity. apply small_conv. lia.
Qed.
Lemma toupper_lemma ct c : character c -> (Lower c -> toupper ct c = c - 32) /\ (~ Lower c -> toupper ct c = c).
Proof.
  intros H. unfold toupper. change (has c m_lower) with (islower c). rewrite islower_b by exact H. unfold Lower.
  destruct ((97 <=? c) && (c <=? 122)) eqn:E; split; intros; try lia; try reflexivity. apply small_conv. lia.
Qed.

(** whatever class is asked for, every ASCII character is in it *)
Lemma isclassified_always_lemma cm m c : length cm = 12%nat -> Forall (fun x => 0 < x) cm -> 0 <= m ->
  0 <= c < 128 -> isclassified cm m c = true.
Proof.
  intros L F M C.
  assert (NZ : forall x, In x cm -> (Z.lor m x =? 0) = false).
  { intros x I. rewrite Forall_forall in F. specialize (F x I). apply Z.eqb_neq. intros E.
    apply Z.lor_eq_0_iff in E. lia. }
  do 13 (destruct cm as [|? cm]; [try discriminate|]); [|discriminate].
  unfold isclassified, class_masks. cbn [combine existsb fst snd].
  rewrite !NZ by (cbn [In]; tauto). cbn [negb andb].
  assert (CH : character c) by (unfold character; lia).
  change (has c m_print) with (isprint c). change (has c m_cntrl) with (iscntrl c).
  pose proof (isprint_lemma c CH). pose proof (iscntrl_lemma c CH). unfold Print, Cntrl in *.
  destruct (Z_lt_ge_dec c 32); [|destruct (Z.eq_dec c 127)].
  - rewrite (proj2 H0) by lia. now rewrite ?orb_true_r.
  - rewrite (proj2 H0) by lia. now rewrite ?orb_true_r.
  - rewrite (proj2 H) by lia. now rewrite ?orb_true_r.
Qed.

(** ** Digits *)
Lemma char_to_int_ok t c b : character c -> b <= 36 ->
  char_to_int t c b = if is_dig b c then weight c else conv t (-1).
Proof.
  intros C B. unfold char_to_int, is_dig, weight. rewrite isdigit_b, islower_b, isupper_b by exact C.
  destruct ((48 <=? c) && (c <=? 57)) eqn:E1; cbn [andb].
  { destruct (Z.ltb_spec (c - 48) b).
    - rewrite small_conv by lia. destruct (Z.leb_spec 0 (c - 48)); [reflexivity|lia].
    - destruct ((97 <=? c) && (c <=? 122)) eqn:E2; [lia|]. destruct ((65 <=? c) && (c <=? 90)) eqn:E3; [lia|].
      cbn [andb]. now rewrite andb_false_r. }
  destruct ((97 <=? c) && (c <=? 122)) eqn:E2; cbn [andb].
  { destruct (Z.ltb_spec (c - 97 + 10) b).
    - rewrite small_conv by lia. destruct (Z.leb_spec 0 (c - 97 + 10)); [reflexivity|lia].
    - destruct ((65 <=? c) && (c <=? 90)) eqn:E3; [lia|]. cbn [andb]. now rewrite andb_false_r. }
  destruct ((65 <=? c) && (c <=? 90)) eqn:E3; cbn [andb]; [|reflexivity].
  destruct (Z.ltb_spec (c - 65 + 10) b); [|now rewrite andb_false_r].
  rewrite small_conv by lia. destruct (Z.leb_spec 0 (c - 65 + 10)); [reflexivity|lia].
Qed.

Lemma minus_one t : conv t (-1) = if sgn t then -1 else tmax t.
Proof.
  pose proof (half_pos t). pose proof (wid_half t).
  destruct (sgn t) eqn:E.
  - apply conv_id. unfold is_val. rewrite E. lia.
  - unfold conv, tmax. rewrite E. cbn [andb]. replace (-1) with (2 ^ wid t - 1 + (-1) * 2 ^ wid t) by lia.
    rewrite Z_mod_plus_full. apply Z.mod_small. lia.
Qed.
Lemma tmax_ge t : 127 <= tmax t.
Proof.
  unfold tmax. pose proof (wid_ge t).
  assert (2 ^ 7 <= 2 ^ (wid t - 1)) by (apply Z.pow_le_mono_r; lia). pose proof (wid_half t). pose proof (half_pos t).
  change (2 ^ 7) with 128 in *. destruct (sgn t); lia.
Qed.
Lemma weight_lt c : weight c < 36.
Proof. unfold weight. repeat (match goal with |- context [if ?b then _ else _] => destruct b eqn:? end); lia. Qed.

(** exact arithmetic in the promoted type *)
Lemma arith_pos il t z : 0 <= z <= tmax t -> arith (promote il t) z = Ok z.
Proof.
  intros H. assert (V : is_val (promote il t) z).
  { unfold promote. destruct (Nat.ltb_spec (lg t) il) as [L|L].
    - unfold is_val, int_t. cbn [sgn]. unfold tmax in H.
      assert (wid t <= wid (Ity true il) - 1).
      { unfold wid, bytes. cbn [lg]. assert (2 ^ (Z.of_nat (lg t) + 1) <= 2 ^ Z.of_nat il) by (apply Z.pow_le_mono_r; lia).
        rewrite Z.pow_add_r in H0 by lia. pose proof (pow_pos (Z.of_nat (lg t)) ltac:(lia)). lia. }
      pose proof (wid_ge t). assert (2 ^ wid t <= 2 ^ (wid (Ity true il) - 1)) by (apply Z.pow_le_mono_r; lia).
      pose proof (wid_half t). pose proof (half_pos t). destruct (sgn t); lia.
    - unfold is_val, tmax in *. pose proof (half_pos t). destruct (sgn t); lia. }
  unfold arith. destruct (sgn (promote il t)) eqn:S.
  - unfold is_val in V. rewrite S in V. unfold tmin, tmax. rewrite S.
    destruct (Z.leb_spec (- 2 ^ (wid (promote il t) - 1)) z); [|lia].
    destruct (Z.leb_spec z (2 ^ (wid (promote il t) - 1) - 1)); [reflexivity|lia].
  - f_equal. now apply conv_id.
Qed.
Lemma arith_neg il t z : sgn t = true -> 0 <= z <= tmax t -> arith (promote il t) (- z) = Ok (- z).
Proof.
  intros S H. assert (S' : sgn (promote il t) = true) by (unfold promote; destruct (_ <? _)%nat; [reflexivity|exact S]).
  pose proof (arith_pos il t z H) as A. unfold arith in *. rewrite S' in *.
  destruct ((tmin (promote il t) <=? z) && (z <=? tmax (promote il t))) eqn:E; [|discriminate].
  unfold tmin, tmax in *. rewrite S' in *. pose proof (half_pos (promote il t)).
  destruct ((- 2 ^ (wid (promote il t) - 1) <=? - z) && (- z <=? 2 ^ (wid (promote il t) - 1) - 1)) eqn:E'; [reflexivity|lia].
Qed.
Lemma pos_val t z : 0 <= z <= tmax t -> is_val t z.
Proof. unfold is_val, tmax. pose proof (half_pos t). destruct (sgn t); lia. Qed.
Lemma neg_val t z : sgn t = true -> 0 <= z <= tmax t -> is_val t (- z).
Proof. unfold is_val, tmax. intros ->. pose proof (half_pos t). lia. Qed.

(** ** The accumulating loop *)

(** the value of further digits [ds] after [v] *)
Definition vfrom (b v : Z) (ds : list Z) : Z := fold_left (fun v c => v * b + weight c) ds v.
Lemma vfrom_ge b ds : forall v, 1 <= b -> 0 <= v -> Forall (fun c => is_dig b c = true) ds -> v <= vfrom b v ds.
Proof.
  induction ds as [|c ds IH]; intros v B V F; [cbn; lia|]. inversion F as [|? ? F1 F2]; subst.
  unfold is_dig in F1. cbn [vfrom fold_left]. change (fold_left _ ds ?w) with (vfrom b w ds).
  assert (v <= v * b + weight c) by nia. specialize (IH (v * b + weight c) B ltac:(lia) F2). lia.
Qed.
Lemma run_all f s : Forall (fun c => f c = true) (run f s).
Proof. induction s as [|c s IH]; cbn [run]; [constructor|]. destruct (f c) eqn:E; [now constructor|constructor]. Qed.

(** what the loop returns for the sign [neg] and the value [v] *)
Definition clamped (t : ity) (neg : bool) (v : Z) : Z :=
  if neg then (if v <=? tmax t - 1 then - v else tmin t) else Z.min v (tmax t).

Lemma cstr_cons m p c s : cstr m p (c :: s) -> rd m p = Ok c /\ c <> 0 /\ cstr m (S p) s.
Proof.
  intros (B & N & Z0). apply block_tl in B. destruct B as [B1 B2]. split; [now apply rd_ok|]. split; [intros ->; apply Z0; now left|].
  split; [exact B2|]. split; [|intros I; apply Z0; now right]. rewrite <- N. f_equal. cbn [length]. lia.
Qed.
Lemma cstr_nil m p : cstr m p [] -> rd m p = Ok 0.
Proof. intros (_ & N & _). apply rd_ok. rewrite <- N. f_equal. cbn. lia. Qed.
Lemma zero_char : character 0. Proof. unfold character. lia. Qed.

Lemma impl_1_law il t b neg m : 2 <= b <= 36 -> (neg = true -> sgn t = true) ->
  forall s p r val c, Forall character s -> cstr m p s -> c = hd 0 s ->
  0 <= val <= tmax t - (if neg then 1 else 0) -> (length s < r)%nat ->
  str_to_int_impl_1 il t r m p b val (char_to_int t c b) neg = Ok (clamped t neg (vfrom b val (run (is_dig b) s))).
Proof.
  intros B SG. assert (T := tmax_ge t). assert (WL := weight_lt).
  assert (STOP : forall r val c, character c -> is_dig b c = false -> 0 <= val <= tmax t - (if neg then 1 else 0) ->
     forall p, str_to_int_impl_1 il t (S r) m p b val (char_to_int t c b) neg = Ok (clamped t neg val)).
  { intros r val c C D V p. rewrite char_to_int_ok by (exact C || lia). rewrite D. cbn [str_to_int_impl_1].
    rewrite Z.eqb_refl. unfold clamped. destruct neg.
    - replace (-1 * val) with (- val) by lia. rewrite arith_neg by (auto; lia). cbn [bind].
      rewrite conv_id by (apply neg_val; auto; lia). destruct (Z.leb_spec val (tmax t - 1)); [reflexivity|lia].
    - f_equal. lia. }
  induction s as [|c s IH]; intros p r val c0 F CS -> V R; cbn [hd length] in *.
  { destruct r; [lia|]. rewrite STOP; [reflexivity|apply zero_char| |exact V]. unfold is_dig, weight. cbn. reflexivity. }
  inversion F as [|? ? FC FS]; subst. destruct r as [|r]; [lia|].
  cbn [run]. destruct (is_dig b c) eqn:D; cycle 1.
  { rewrite STOP by (assumption). reflexivity. }
  rewrite char_to_int_ok by (exact FC || lia). rewrite D. cbn [str_to_int_impl_1].
  specialize (WL c). pose proof D as D'. unfold is_dig in D'.
  destruct (Z.eqb_spec (weight c) (conv t (-1))) as [E|_].
  { rewrite minus_one in E. destruct (sgn t); lia. }
  rewrite arith_pos by lia. cbn [bind]. rewrite arith_pos by (destruct neg; lia). cbn [bind].
  set (k := if neg then 1 else 0) in *. assert (K : 0 <= k <= 1) by (unfold k; destruct neg; lia).
  rewrite Z.quot_div_nonneg by lia.
  cbn [vfrom fold_left]. change (fold_left _ ?l ?w) with (vfrom b w l).
  destruct (Z.ltb_spec ((tmax t - weight c - k) / b) val) as [L|L].
  - assert (G : tmax t - k < val * b + weight c).
    { pose proof (Z.div_lt_upper_bound (tmax t - weight c - k) b val) as U.
      assert (tmax t - weight c - k < b * val).
      { pose proof (Z.mod_pos_bound (tmax t - weight c - k) b ltac:(lia)). pose proof (Z.div_mod (tmax t - weight c - k) b ltac:(lia)). nia. }
      lia. }
    pose proof (vfrom_ge b (run (is_dig b) s) (val * b + weight c) ltac:(lia) ltac:(nia) (run_all _ _)) as G2.
    f_equal. unfold clamped, k in *. destruct neg.
    + destruct (Z.leb_spec (vfrom b (val * b + weight c) (run (is_dig b) s)) (tmax t - 1)); [lia|reflexivity].
    + lia.
  - assert (G : val * b + weight c <= tmax t - k).
    { pose proof (Z.mul_div_le (tmax t - weight c - k) b ltac:(lia)). nia. }
    rewrite arith_pos by nia. cbn [bind]. rewrite arith_pos by nia. cbn [bind].
    destruct (cstr_cons _ _ _ _ CS) as (_ & _ & CS').
    assert (RD : rd m (S p) = Ok (hd 0 s)).
    { destruct s as [|c' s']; [now apply cstr_nil|]. now apply (cstr_cons _ _ _ _ CS'). }
    rewrite RD. cbn [bind]. rewrite conv_id by (apply pos_val; nia).
    apply IH; [exact FS|exact CS'|reflexivity|fold k; nia|lia].
Qed.

(** ** The prefixes and the sign *)
(** what str_to_int_impl computes: 0x is skipped for every base *)
Definition radix' (base : Z) (s : list Z) : Z :=
  if base =? 0 then if zero_x s then 16 else if starts 48 s then 8 else 10 else base.
Definition mag' (base : Z) (s : list Z) : Z :=
  value (radix' base s) (run (is_dig (radix' base s)) (if zero_x s then skipn 2 s else s)).

Lemma impl_law il t neg m base s p r : base_ok base -> (neg = true -> sgn t = true) ->
  Forall character s -> cstr m p s -> (length s < r)%nat ->
  str_to_int_impl il t r m p base neg = Ok (clamped t neg (mag' base s)).
Proof.
  intros BO SG F CS R. pose proof (tmax_ge t) as T.
  assert (LAW : forall s p b, 2 <= b <= 36 -> Forall character s -> cstr m p s -> (length s < r)%nat ->
     str_to_int_impl_1 il t r m p b 0 (char_to_int t (hd 0 s) b) neg = Ok (clamped t neg (value b (run (is_dig b) s)))).
  { intros s0 p0 b B F0 C0 R0. apply (impl_1_law il t b neg m B SG s0 p0 r 0); auto. destruct neg; lia. }
  unfold str_to_int_impl, mag', radix'.
  assert (BB : forall k, 2 <= k <= 36 -> 2 <= (if base =? 0 then k else base) <= 36).
  { intros k K. destruct BO as [-> | BO]; [exact K|]. destruct (Z.eqb_spec base 0); lia. }
  destruct s as [|c s].
  { rewrite (cstr_nil _ _ CS). cbn [bind]. change (0 =? 48) with false. cbv iota.
    cbn [zero_x starts]. apply (LAW [] p); auto. apply BB. lia. }
  pose proof (cstr_cons _ _ _ _ CS) as (RD & NZ & CS1). rewrite RD. cbn [bind]. cbn [starts].
  inversion F as [|? ? FC FS]; subst. cbn [length] in R.
  destruct (Z.eqb_spec c 48) as [-> | N]; cycle 1.
  { replace (zero_x (c :: s)) with false by (cbn [zero_x]; destruct s; [reflexivity|]; destruct (Z.eqb_spec c 48); [lia|reflexivity]).
    apply (LAW (c :: s) p); auto. apply BB. lia. }
  destruct s as [|c1 s].
  { rewrite (cstr_nil _ _ CS1). cbn [bind]. change ((0 =? 120) || (0 =? 88)) with false. cbv iota. cbn [zero_x].
    rewrite (LAW [] (S p)); auto; cycle 1. { apply BB; lia. } { cbn [length]; lia. }
    cbn [run]. destruct (is_dig _ 48) eqn:D; [|reflexivity]. reflexivity. }
  pose proof (cstr_cons _ _ _ _ CS1) as (RD1 & NZ1 & CS2). rewrite RD1. cbn [bind zero_x].
  inversion FS as [|? ? FC1 FS1]; subst. cbn [length] in R. change (48 =? 48) with true. cbn [andb].
  destruct ((c1 =? 120) || (c1 =? 88)) eqn:X.
  - replace (p + 2)%nat with (S (S p)) by lia.
    assert (RD2 : rd m (S (S p)) = Ok (hd 0 s)).
    { destruct s as [|c' s']; [now apply cstr_nil|]. now apply (cstr_cons _ _ _ _ CS2). }
    rewrite RD2. cbn [bind skipn]. apply LAW; auto; [|lia]. apply BB. lia.
  - rewrite (LAW (c1 :: s) (S p)); auto; cycle 1. { apply BB; lia. } { cbn [length]; lia. }
    set (b := if base =? 0 then 8 else base) in *. assert (B : 2 <= b <= 36) by (apply BB; lia).
    cbn [run]. unfold is_dig at 3. change (weight 48) with 0. destruct (Z.leb_spec 0 0); [|lia].
    destruct (Z.ltb_spec 0 b); [|lia]. cbn [andb]. reflexivity.
Qed.

Lemma mag_ok base s : base = 0 \/ base = 16 \/ zero_x s = false -> mag' base s = value (radix base s) (digits_of base s).
Proof.
  intros H. unfold mag', radix', digits_of, radix, hex_form. destruct (zero_x s) eqn:X; cbn [andb].
  - destruct H as [-> | [-> | H]]; [| |discriminate];
      (destruct s as [|a [|x s]]; [discriminate|discriminate|]; cbn [zero_x] in X;
       destruct (Z.eqb_spec a 48) as [-> |]; [|discriminate]; cbn [andb] in X; cbn [skipn];
       assert (DX : x = 120 \/ x = 88) by lia;
       assert (D8 : is_dig 8 x = false) by (destruct DX as [-> | ->]; reflexivity);
       assert (D16 : is_dig 16 x = false) by (destruct DX as [-> | ->]; reflexivity)).
    + change (0 =? 0) with true. cbv iota. destruct s as [|c s].
      * cbn [starts]. change (48 =? 48) with true. cbv iota. change (8 =? 16) with false. cbn [andb run].
        change (is_dig 8 48) with true. cbv iota. rewrite D8. reflexivity.
      * destruct (is_dig 16 c) eqn:D.
        -- change (16 =? 16) with true. cbn [andb]. reflexivity.
        -- cbn [starts]. change (48 =? 48) with true. cbv iota. change (8 =? 16) with false. cbn [andb run].
           rewrite D. change (is_dig 8 48) with true. cbv iota. rewrite D8. reflexivity.
    + change (16 =? 0) with false. cbv iota. change (16 =? 16) with true. cbn [andb]. destruct s as [|c s].
      * cbn [run]. change (is_dig 16 48) with true. cbv iota. rewrite D16. reflexivity.
      * destruct (is_dig 16 c) eqn:D; [reflexivity|]. cbn [run].
        rewrite D. change (is_dig 16 48) with true. cbv iota. rewrite D16. reflexivity.
  - destruct (base =? 0); [|now rewrite andb_false_r]. now rewrite andb_false_r.
Qed.

(** the sign as str_to_int sees it *)
Definition sign' (t : ity) (s : list Z) : bool * list Z :=
  match s with
  | c :: s' => if sgn t && (c =? 45) then (true, s') else if c =? 43 then (false, s') else (false, s)
  | [] => (false, [])
  end.

Lemma str_to_int_law il t base m : base_ok base -> forall s p r,
  Forall character s -> cstr m p s -> (length s + 1 < r)%nat ->
  str_to_int il t r m p base = Ok (let '(neg, u) := sign' t (skip is_sp s) in clamped t neg (mag' base u)).
Proof.
  intros BO. induction s as [|c s IH]; intros p r F CS R; (destruct r as [|r]; [lia|]); cbn [str_to_int length] in *.
  - rewrite (cstr_nil _ _ CS). cbn [bind]. rewrite isspace_b by apply zero_char. change (is_sp 0) with false.
    change (0 =? 45) with false. rewrite andb_false_r. change (0 =? 43) with false. cbv iota. cbn [skip sign'].
    apply impl_law; auto; [discriminate|]. cbn [length]. lia.
  - destruct (cstr_cons _ _ _ _ CS) as (RD & NZ & CS1). rewrite RD. cbn [bind]. inversion F as [|? ? FC FS]; subst.
    rewrite isspace_b by exact FC. cbn [skip]. destruct (is_sp c); [apply IH; auto; lia|]. cbn [sign'].
    destruct (sgn t && (c =? 45)) eqn:E1.
    { apply impl_law; auto; [|lia]. now destruct (sgn t). }
    destruct (c =? 43); [apply impl_law; auto; [discriminate|lia]|]. apply impl_law; auto; [discriminate|cbn [length]; lia].
Qed.

Lemma clamped_neg t v : sgn t = true -> 0 <= v -> v <> tmax t -> clamped t true v = Z.max (tmin t) (- v).
Proof.
  intros S V N. unfold clamped, tmin, tmax in *. rewrite S in *. pose proof (half_pos t).
  destruct (Z.leb_spec v (2 ^ (wid t - 1) - 1 - 1)); lia.
Qed.
Lemma value_nonneg b ds : 1 <= b -> Forall (fun c => is_dig b c = true) ds -> 0 <= value b ds.
Proof. intros B F. exact (vfrom_ge b ds 0 B ltac:(lia) F). Qed.
Lemma radix_ok base s : base_ok base -> 2 <= radix base s <= 36.
Proof. intros B. unfold radix. destruct (Z.eqb_spec base 0); [|destruct B; lia]. destruct (hex_form s); [lia|]. destruct (starts 48 s); lia. Qed.
Lemma denotes_nonneg base s : base_ok base -> 0 <= snd (denotes base s).
Proof.
  intros B. unfold denotes. destruct (sign (skip is_sp s)) as [n u]. cbn [snd]. pose proof (radix_ok base u B).
  apply value_nonneg; [lia|]. apply run_all.
Qed.

Lemma str_to_int_signed_lemma il t base m s p r : sgn t = true -> base_ok base -> Forall character s -> cstr m p s ->
  (length s + 1 < r)%nat -> base = 0 \/ base = 16 \/ zero_x (tail_of s) = false -> denotes base s <> (true, tmax t) ->
  str_to_int il t r m p base = Ok (c_strtol t base s).
Proof.
  intros S B F CS R X N. rewrite (str_to_int_law il t base m B s p r F CS R). f_equal.
  pose proof (denotes_nonneg base s B) as V. unfold c_strtol, denotes, tail_of in *.
  assert (E : sign' t (skip is_sp s) = sign (skip is_sp s)) by (unfold sign', sign; rewrite S; reflexivity).
  rewrite E. destruct (sign (skip is_sp s)) as [neg u]. cbn [snd] in *. rewrite mag_ok by exact X.
  destruct neg; [|apply Z.min_comm]. apply clamped_neg; [exact S|exact V|]. intros Q. apply N. now rewrite Q.
Qed.

Lemma str_to_int_minus_max_lemma il t base m s p r : sgn t = true -> base_ok base -> Forall character s -> cstr m p s ->
  (length s + 1 < r)%nat -> base = 0 \/ base = 16 \/ zero_x (tail_of s) = false -> denotes base s = (true, tmax t) ->
  str_to_int il t r m p base = Ok (tmin t) /\ c_strtol t base s = - tmax t /\ tmin t <> - tmax t.
Proof.
  intros S B F CS R X N. rewrite (str_to_int_law il t base m B s p r F CS R). unfold c_strtol, denotes, tail_of in *.
  assert (E : sign' t (skip is_sp s) = sign (skip is_sp s)) by (unfold sign', sign; rewrite S; reflexivity).
  rewrite E. destruct (sign (skip is_sp s)) as [neg u]. cbn [snd] in *. rewrite mag_ok by exact X.
  injection N as -> ->. unfold clamped. destruct (Z.leb_spec (tmax t) (tmax t - 1)); [lia|]. split; [reflexivity|].
  unfold tmin, tmax. rewrite S. lia.
Qed.

Lemma str_to_int_unsigned_lemma il t base m s p r : sgn t = false -> base_ok base -> Forall character s -> cstr m p s ->
  (length s + 1 < r)%nat -> base = 0 \/ base = 16 \/ zero_x (tail_of s) = false -> fst (denotes base s) = false ->
  str_to_int il t r m p base = Ok (c_strtoul t base s).
Proof.
  intros S B F CS R X N. rewrite (str_to_int_law il t base m B s p r F CS R). f_equal.
  unfold c_strtoul, denotes, tail_of in *.
  assert (E : sign' t (skip is_sp s) = sign (skip is_sp s)).
  { revert N. unfold sign', sign. rewrite S. cbn [andb]. destruct (skip is_sp s) as [|c u]; [reflexivity|].
    destruct (c =? 45); [discriminate|reflexivity]. }
  rewrite E. destruct (sign (skip is_sp s)) as [neg u]. cbn [fst snd] in *. subst neg. rewrite mag_ok by exact X.
  unfold clamped. destruct (Z.ltb_spec (tmax t) (value (radix base u) (digits_of base u))); lia.
Qed.

(** a minus sign makes the result of an unsigned conversion 0 *)
Lemma str_to_int_unsigned_minus_lemma il t base m s p r : sgn t = false -> base_ok base -> Forall character s -> cstr m p (45 :: s) ->
  (length s + 2 < r)%nat -> str_to_int il t r m p base = Ok 0.
Proof.
  intros S B F CS R. rewrite (str_to_int_law il t base m B (45 :: s) p r); [|constructor; [unfold character; lia|exact F]|exact CS|cbn [length]; lia].
  f_equal. cbn [skip]. change (is_sp 45) with false. cbv iota. cbn [sign']. rewrite S. cbn [andb]. change (45 =? 43) with false. cbv iota.
  unfold mag', radix'. replace (zero_x (45 :: s)) with false by (destruct s; reflexivity). cbn [starts]. change (45 =? 48) with false. cbv iota.
  cbn [run]. change (is_dig ?b 45) with false. cbv iota. unfold clamped, value. cbn [fold_left]. pose proof (tmax_ge t). lia.
Qed.

(** 0x is skipped in every base *)
Lemma str_to_int_zero_x_lemma il t base m c p r : 2 <= base <= 33 -> base <> 16 -> character c -> is_dig base c = true -> weight c <> 0 ->
  cstr m p [48; 120; c] -> (4 < r)%nat ->
  str_to_int il t r m p base = Ok (weight c) /\ c_strtol t base [48; 120; c] = 0 /\ c_strtoul t base [48; 120; c] = 0.
Proof.
  intros B N16 C D W CS R. pose proof (tmax_ge t) as T. pose proof (weight_lt c) as WL. split.
  - assert (BO : base_ok base) by (right; lia).
    rewrite (str_to_int_law il t base m BO [48; 120; c] p r); [|repeat constructor; unfold character in *; lia|exact CS|cbn [length]; lia].
    f_equal. cbn [skip]. change (is_sp 48) with false. cbv iota. cbn [sign']. change (48 =? 45) with false. change (48 =? 43) with false.
    rewrite andb_false_r. cbv iota. unfold mag', radix'. destruct (Z.eqb_spec base 0); [lia|]. cbn [zero_x].
    change ((48 =? 48) && ((120 =? 120) || (120 =? 88))) with true. cbv iota. cbn [skipn run]. rewrite D. unfold clamped, value. cbn [fold_left]. lia.
  - assert (Q : denotes base [48; 120; c] = (false, 0)).
    { unfold denotes. cbn [skip]. change (is_sp 48) with false. cbv iota. cbn [sign]. change (48 =? 45) with false. change (48 =? 43) with false. cbv iota.
      unfold digits_of, radix. destruct (Z.eqb_spec base 0); [lia|]. destruct (Z.eqb_spec base 16); [lia|]. cbn [andb run].
      replace (is_dig base 48) with true by (unfold is_dig; change (weight 48) with 0; lia).
      replace (is_dig base 120) with false by (unfold is_dig; change (weight 120) with 33; lia). reflexivity. }
    unfold c_strtol, c_strtoul. rewrite Q. destruct (Z.ltb_spec (tmax t) 0); lia.
Qed.

(** ** ascii_to_int *)
Lemma ascii_impl_law il t neg m : (neg = true -> sgn t = true) ->
  forall s p r val, Forall character s -> cstr m p s ->
  0 <= val <= tmax t - (if neg then 1 else 0) -> (length s < r)%nat ->
  ascii_to_int_impl il t r m p val neg = Ok (clamped t neg (vfrom 10 val (run (is_dig 10) s))).
Proof.
  intros SG. assert (T := tmax_ge t).
  assert (STOP : forall val, 0 <= val <= tmax t - (if neg then 1 else 0) ->
    (if neg then v <- arith (promote il t) (- val) ;; Ok (conv t v) else Ok val) = Ok (clamped t neg val)).
  { intros val V. unfold clamped. destruct neg.
    - rewrite arith_neg by (auto; lia). cbn [bind].
      rewrite conv_id by (apply neg_val; auto; lia). destruct (Z.leb_spec val (tmax t - 1)); [reflexivity|lia].
    - f_equal. lia. }
  assert (D10 : forall c, is_dig 10 c = (48 <=? c) && (c <=? 57)).
  { intros c. unfold is_dig, weight. repeat (match goal with |- context [if ?b then _ else _] => destruct b eqn:? end); lia. }
  induction s as [|c s IH]; intros p r val F CS V R; (destruct r as [|r]; [lia|]); cbn [ascii_to_int_impl length run] in *.
  { rewrite (cstr_nil _ _ CS). cbn [bind]. rewrite isdigit_b by apply zero_char. change ((48 <=? 0) && (0 <=? 57)) with false. cbn [negb]. now apply STOP. }
  inversion F as [|? ? FC FS]; subst. destruct (cstr_cons _ _ _ _ CS) as (RD & NZ & CS1). rewrite RD. cbn [bind].
  rewrite isdigit_b by exact FC. rewrite D10. destruct ((48 <=? c) && (c <=? 57)) eqn:D; cbn [negb]; [|now apply STOP].
  rewrite arith_pos by lia. cbn [bind]. rewrite arith_pos by (destruct neg; lia). cbn [bind].
  set (k := if neg then 1 else 0) in *. assert (K : 0 <= k <= 1) by (unfold k; destruct neg; lia).
  rewrite Z.quot_div_nonneg by lia. assert (WC : weight c = c - 48) by (unfold weight; rewrite D; reflexivity).
  cbn [vfrom fold_left]. change (fold_left _ ?l ?w) with (vfrom 10 w l). rewrite WC.
  destruct (Z.ltb_spec ((tmax t - (c - 48) - k) / 10) val) as [L|L].
  - assert (G : tmax t - k < val * 10 + (c - 48)) by lia.
    pose proof (vfrom_ge 10 (run (is_dig 10) s) (val * 10 + (c - 48)) ltac:(lia) ltac:(lia) (run_all _ _)) as G2.
    f_equal. unfold clamped, k in *. destruct neg.
    + destruct (Z.leb_spec (vfrom 10 (val * 10 + (c - 48)) (run (is_dig 10) s)) (tmax t - 1)); [lia|reflexivity].
    + lia.
  - assert (G : val * 10 + (c - 48) <= tmax t - k) by lia.
    rewrite arith_pos by lia. cbn [bind]. rewrite arith_pos by lia. cbn [bind].
    rewrite conv_id by (apply pos_val; lia). apply IH; [exact FS|exact CS1|fold k; lia|lia].
Qed.
Lemma ascii_law il t m : forall s p r,
  Forall character s -> cstr m p s -> (length s + 1 < r)%nat ->
  ascii_to_int il t r m p = Ok (let '(neg, u) := sign' t (skip is_sp s) in clamped t neg (value 10 (digits_of 10 u))).
Proof.
  assert (E : forall u, value 10 (digits_of 10 u) = vfrom 10 0 (run (is_dig 10) u)) by reflexivity.
  pose proof (tmax_ge t) as T.
  induction s as [|c s IH]; intros p r F CS R; (destruct r as [|r]; [lia|]); cbn [ascii_to_int length] in *.
  - rewrite (cstr_nil _ _ CS). cbn [bind]. rewrite isspace_b by apply zero_char. change (is_sp 0) with false.
    change (0 =? 45) with false. rewrite andb_false_r. change (0 =? 43) with false. cbv iota. cbn [skip sign'].
    rewrite E. apply ascii_impl_law; auto; [discriminate|cbv iota; lia|]. cbn [length]. lia.
  - destruct (cstr_cons _ _ _ _ CS) as (RD & NZ & CS1). rewrite RD. cbn [bind]. inversion F as [|? ? FC FS]; subst.
    rewrite isspace_b by exact FC. cbn [skip]. destruct (is_sp c); [apply IH; auto; lia|]. cbn [sign'].
    destruct (sgn t && (c =? 45)) eqn:E1.
    { rewrite E. apply ascii_impl_law; auto; [|cbv iota; lia|lia]. now destruct (sgn t). }
    destruct (c =? 43); rewrite E; (apply ascii_impl_law; auto; [discriminate|cbv iota; lia|cbn [length]; lia]).
Qed.

Lemma ascii_to_int_signed_lemma il t m s p r : sgn t = true -> Forall character s -> cstr m p s ->
  (length s + 1 < r)%nat -> denotes 10 s <> (true, tmax t) ->
  ascii_to_int il t r m p = Ok (c_strtol t 10 s).
Proof.
  intros S F CS R N. rewrite (ascii_law il t m s p r F CS R). f_equal.
  assert (B : base_ok 10) by (right; lia).
  pose proof (denotes_nonneg 10 s B) as V. unfold c_strtol, denotes in *.
  assert (E : sign' t (skip is_sp s) = sign (skip is_sp s)) by (unfold sign', sign; rewrite S; reflexivity).
  rewrite E. destruct (sign (skip is_sp s)) as [neg u]. cbn [snd] in *.
  change (radix 10 u) with 10 in *.
  destruct neg; [|apply Z.min_comm]. apply clamped_neg; [exact S|exact V|]. intros Q. apply N. now rewrite Q.
Qed.
Lemma ascii_to_int_minus_max_lemma il t m s p r : sgn t = true -> Forall character s -> cstr m p s ->
  (length s + 1 < r)%nat -> denotes 10 s = (true, tmax t) ->
  ascii_to_int il t r m p = Ok (tmin t) /\ c_strtol t 10 s = - tmax t.
Proof.
  intros S F CS R N. rewrite (ascii_law il t m s p r F CS R). unfold c_strtol, denotes in *.
  assert (E : sign' t (skip is_sp s) = sign (skip is_sp s)) by (unfold sign', sign; rewrite S; reflexivity).
  rewrite E. destruct (sign (skip is_sp s)) as [neg u]. cbn [snd] in *. change (radix 10 u) with 10 in *.
  injection N as -> ->. unfold clamped. destruct (Z.leb_spec (tmax t) (tmax t - 1)); [lia|]. split; [reflexivity|].
  unfold tmin, tmax. rewrite S. lia.
Qed.
Lemma ascii_to_int_unsigned_lemma il t m s p r : sgn t = false -> Forall character s -> cstr m p s ->
  (length s + 1 < r)%nat -> fst (denotes 10 s) = false ->
  ascii_to_int il t r m p = Ok (c_strtoul t 10 s).
Proof.
  intros S F CS R N. rewrite (ascii_law il t m s p r F CS R). f_equal.
  unfold c_strtoul, denotes in *.
  assert (E : sign' t (skip is_sp s) = sign (skip is_sp s)).
  { revert N. unfold sign', sign. rewrite S. cbn [andb]. destruct (skip is_sp s) as [|c u]; [reflexivity|].
    destruct (c =? 45); [discriminate|reflexivity]. }
  rewrite E. destruct (sign (skip is_sp s)) as [neg u]. cbn [fst snd] in *. subst neg. change (radix 10 u) with 10 in *.
  unfold clamped. destruct (Z.ltb_spec (tmax t) (value 10 (digits_of 10 u))); lia.
Qed.
