(** Proofs about UuidModel.v: comparisons, variant and version, generators, literals, hashes. *)
From Coq Require Import List Arith ZArith Bool Lia ZifyBool ZifyNat.
From Verif Require Import Base BitModel SearchModel SearchSpec BaseProof SearchProof SearchProof2 OrderModel OrderSpec OrderProof4 OrderProof5
  NumModel NumProof MutModel MutSpec ShaModel ShaSpec ShaProof ShaProof2 MdModel MdSpec MdProof MdProof2 CharModel CharSpec CharProof
  StrModel StrSpec StrProof BstrModel BstrSpec BstrProof BstrProof2 UuidModel UuidSpec UuidProof.
Import ListNotations.
Open Scope Z_scope.
Ltac Zify.zify_post_hook ::= idtac.

(** ** Comparisons *)
Lemma number_from u : forall a, fold_left (fun a b => a * 256 + b) u a = a * 256 ^ Z.of_nat (length u) + number u.
Proof.
  unfold number. induction u as [|b u IH]; intros a; cbn [fold_left length].
  - rewrite Z.pow_0_r. lia.
  - rewrite IH, (IH (0 * 256 + b)). replace (Z.of_nat (S (length u))) with (Z.of_nat (length u) + 1) by lia.
    rewrite Z.pow_add_r by lia. change (256 ^ 1) with 256. ring.
Qed.
Lemma number_cons b u : number (b :: u) = b * 256 ^ Z.of_nat (length u) + number u.
Proof. unfold number at 1. cbn [fold_left]. now rewrite number_from. Qed.
Lemma number_bound u : Forall is_byte u -> 0 <= number u < 256 ^ Z.of_nat (length u).
Proof.
  induction 1 as [|b u B _ IH]; [cbn; lia|]. rewrite number_cons. cbn [length].
  replace (Z.of_nat (S (length u))) with (Z.of_nat (length u) + 1) by lia. rewrite Z.pow_add_r by lia.
  unfold is_byte in B. change (2 ^ 8) with 256 in B. change (256 ^ 1) with 256.
  set (P := 256 ^ Z.of_nat (length u)) in *. nia.
Qed.

(** the first position at which two lists differ decides *)
Inductive lexlt : list Z -> list Z -> Prop :=
| lex_here a b u v : a < b -> length u = length v -> lexlt (a :: u) (b :: v)
| lex_next a u v : lexlt u v -> lexlt (a :: u) (a :: v).
Lemma lex_total u : forall v, length u = length v -> u = v \/ lexlt u v \/ lexlt v u.
Proof.
  induction u as [|a u IH]; intros [|b v] L; cbn in L; try lia; [now left|].
  destruct (Z.lt_trichotomy a b) as [C|[->|C]].
  - right. left. constructor; [exact C|lia].
  - destruct (IH v ltac:(lia)) as [->|[X|X]]; [now left|right; left; now apply lex_next|right; right; now apply lex_next].
  - right. right. constructor; [exact C|lia].
Qed.
Lemma lex_number u v : Forall is_byte u -> Forall is_byte v -> lexlt u v -> number u < number v.
Proof.
  intros U V H. induction H as [a b u v C L|a u v H IH].
  - inversion_clear U as [|? ? _ U']. inversion_clear V as [|? ? _ V']. rewrite !number_cons, L.
    pose proof (number_bound u U'). pose proof (number_bound v V'). rewrite L in *.
    set (P := 256 ^ Z.of_nat (length v)) in *. nia.
  - inversion_clear U as [|? ? _ U']. inversion_clear V as [|? ? _ V']. rewrite !number_cons.
    specialize (IH U' V'). assert (length u = length v) as ->; [|lia]. clear - H. induction H; cbn; lia.
Qed.
Lemma number_lex u v : Forall is_byte u -> Forall is_byte v -> length u = length v -> number u < number v -> lexlt u v.
Proof.
  intros U V L C. destruct (lex_total u v L) as [->|[H|H]]; [lia|exact H|]. apply lex_number in H; [lia|assumption..].
Qed.
Lemma number_inj u v : Forall is_byte u -> Forall is_byte v -> length u = length v -> number u = number v -> u = v.
Proof.
  intros U V L C. destruct (lex_total u v L) as [->|[H|H]]; [reflexivity|apply lex_number in H; [lia|assumption..]..].
Qed.

Lemma same_iff (u v : list Z) i j x y : nth_error u i = Some x -> nth_error v j = Some y ->
  same Z.ltb Z.ltb u i v j <-> x = y.
Proof.
  intros X Y. unfold same, rel. split.
  - intros (N1 & N2). destruct (Z.lt_trichotomy x y) as [C|[C|C]]; [|exact C|]; exfalso.
    + apply N1. exists x, y. repeat split; try assumption. now apply Z.ltb_lt.
    + apply N2. exists y, x. repeat split; try assumption. now apply Z.ltb_lt.
  - intros ->. split; intros (a & b & A & B & C); rewrite X in *; rewrite Y in *; injection A as <-; injection B as <-; now rewrite Z.ltb_irrefl in C.
Qed.
Lemma lex_less_lexlt u v : length u = length v ->
  lex_less Z.ltb Z.ltb u 0 (length u) v 0 (length v) <-> lexlt u v.
Proof.
  revert v. induction u as [|a u IH]; intros [|b v] L; cbn in L; try lia.
  - split; [|inversion 1]. intros (k & _ & K & _). cbn in K. lia.
  - split.
    + intros (k & K1 & K2 & SM & X). destruct k as [|k].
      * destruct X as [X|(x & y & NX & NY & XY)]; [cbn in X; lia|]. cbn in NX, NY. injection NX as <-. injection NY as <-.
        apply Z.ltb_lt in XY. constructor; [exact XY|lia].
      * pose proof (SM 0%nat ltac:(lia)) as S0. apply (same_iff _ _ _ _ a b) in S0; [|reflexivity..]. subst b. apply lex_next. apply IH; [lia|].
        exists k. cbn [length] in K1, K2. split; [lia|]. split; [lia|]. split.
        { intros j J. apply (SM (S j)). lia. }
        { destruct X as [X|X]; [left; cbn [length] in X; lia|right; exact X]. }
    + intros H. inversion H as [? ? ? ? C LL|? ? ? HH]; subst.
      * exists 0%nat. cbn [length]. split; [lia|]. split; [lia|]. split; [intros; lia|]. right. exists a, b. repeat split. now apply Z.ltb_lt.
      * apply IH in HH; [|lia]. destruct HH as (k & K1 & K2 & SM & X). exists (S k). cbn [length]. split; [lia|]. split; [lia|]. split.
        { intros [|j] J; [apply (same_iff _ _ _ _ b b); reflexivity|]. apply (SM j). lia. }
        { destruct X as [X|X]; [left; lia|right; exact X]. }
Qed.

Lemma uuid_lt_ok c d u v : is_uuid u -> is_uuid v -> (depth_bound 16 <= d)%nat ->
  uuid_lt c d u v = Ok (number u <? number v).
Proof.
  intros (LU & BU) (LV & BV) D. unfold uuid_lt.
  destruct (lexicographical_compare_correct_lemma Z.ltb Z.ltb c d u v 0 16 0 16) as (b & E & H).
  { split; lia. } { split; lia. } { exact D. }
  rewrite E. f_equal. assert (LL : length u = length v) by lia.
  pose proof (lex_less_lexlt u v LL) as Q. rewrite LU, LV in Q.
  destruct b, (Z.ltb_spec (number u) (number v)) as [C|C]; try reflexivity; exfalso.
  - assert (number u < number v); [|lia]. apply lex_number; [assumption..|]. apply Q. now apply H.
  - assert (false = true); [|discriminate]. apply H, Q. now apply number_lex.
Qed.
Lemma uuid_eq_ok c d u v : is_uuid u -> is_uuid v -> (depth_bound 16 <= d)%nat ->
  uuid_eq c d u v = Ok (number u =? number v).
Proof.
  intros (LU & BU) (LV & BV) D. unfold uuid_eq.
  destruct (equal_correct_lemma Z.eqb c d u v 0 16 0) as (b & E & H).
  { split; lia. } { lia. } { exact D. }
  rewrite E. f_equal.
  assert (Q : b = true <-> u = v).
  { rewrite H. split.
    - intros X. apply lst_ext; [lia|]. intros i I. destruct (X i ltac:(lia)) as (x & y & NX & NY & XY). cbn [Nat.add] in NX, NY.
      apply Z.eqb_eq in XY. subst y. rewrite (nth_error_nth _ _ 0 NX), (nth_error_nth _ _ 0 NY). reflexivity.
    - intros -> k K. destruct (nth_error v k) as [x|] eqn:N; [|apply nth_error_None in N; lia].
      exists x, x. cbn [Nat.add]. rewrite N. repeat split. apply Z.eqb_refl. }
  destruct b, (Z.eqb_spec (number u) (number v)) as [C|C]; try reflexivity; exfalso.
  - apply C. f_equal. now apply Q.
  - assert (false = true); [|discriminate]. apply Q. apply number_inj; assumption || lia.
Qed.

Lemma is_nil_range_ok u : forall r first, (length u - first < r)%nat -> (first <= length u)%nat ->
  is_nil_range r u first (length u) = Ok (forallb (Z.eqb 0) (skipn first u)).
Proof.
  induction r as [|r IH]; intros first R F; [lia|]. cbn [is_nil_range].
  destruct (Nat.eqb_spec first (length u)) as [->|N].
  - rewrite skipn_all. reflexivity.
  - destruct (nth_error u first) as [x|] eqn:E; [|apply nth_error_None in E; lia].
    unfold rd. rewrite E. cbn [bind]. destruct (nth_error_split u first E) as (l1 & l2 & EQ & LEN).
    assert (SK : skipn first u = x :: l2) by (rewrite EQ, <- LEN, skipn_app, skipn_all, Nat.sub_diag; reflexivity).
    assert (SK1 : skipn (first + 1) u = l2).
    { rewrite EQ, <- LEN, skipn_app, skipn_all2 by lia. replace (length l1 + 1 - length l1)%nat with 1%nat by lia. reflexivity. }
    rewrite SK. cbn [forallb]. rewrite (Z.eqb_sym 0 x). destruct (x =? 0); [|reflexivity]. cbn [andb].
    rewrite IH by lia. now rewrite SK1.
Qed.
Lemma number_zero u : Forall is_byte u -> forallb (Z.eqb 0) u = (number u =? 0).
Proof.
  induction 1 as [|b u B F IH]; [reflexivity|]. cbn [forallb]. rewrite IH, number_cons. pose proof (number_bound u F).
  unfold is_byte in B. assert (0 < 256 ^ Z.of_nat (length u)) by (apply Z.pow_pos_nonneg; lia).
  set (P := 256 ^ Z.of_nat (length u)) in *.
  destruct (Z.eqb_spec 0 b) as [<-|N]; cbn [andb]; [now rewrite Z.mul_0_l|]. symmetry. apply Z.eqb_neq. nia.
Qed.

Lemma uuid_compare_lemma c d u v : is_uuid u -> is_uuid v -> (depth_bound 16 <= d)%nat ->
  uuid_eq c d u v = Ok (number u =? number v) /\ uuid_ne c d u v = Ok (negb (number u =? number v)) /\
  uuid_lt c d u v = Ok (number u <? number v) /\ uuid_gt c d u v = Ok (number v <? number u) /\
  uuid_le c d u v = Ok (number u <=? number v) /\ uuid_ge c d u v = Ok (number v <=? number u) /\
  is_nil u = Ok (number u =? 0) /\ (number u = number v <-> u = v).
Proof.
  intros U V D. unfold uuid_ne, uuid_gt, uuid_le, uuid_ge. rewrite !uuid_eq_ok, !uuid_lt_ok by assumption. cbn [bind].
  repeat (split; [first [reflexivity | f_equal; lia]|]). split.
  - destruct U as (LU & BU). unfold is_nil. rewrite <- LU. rewrite is_nil_range_ok by lia. cbn [skipn]. now rewrite number_zero.
  - destruct U as (LU & BU), V as (LV & BV). split; [apply number_inj; assumption || lia|now intros ->].
Qed.

(** ** Variant and version *)
Lemma variant_lemma u : is_uuid u -> variant u = Ok (match variant_bits u with
    | (false, _, _) => Variant_ncs | (true, false, _) => Variant_rfc_4122
    | (true, true, false) => Variant_microsoft | (true, true, true) => Variant_future end).
Proof.
  intros (L & B). unfold variant, variant_bits.
  destruct (nth_error u 8) as [e|] eqn:E; [|apply nth_error_None in E; lia].
  unfold rd. rewrite E. cbn [bind]. rewrite (nth_error_nth _ _ 0 E). f_equal.
  assert (BE : is_byte e). { rewrite Forall_forall in B. apply B. eapply nth_error_In; exact E. }
  assert (Q : (Z.land e 128 =? 0) = negb (Z.testbit e 7) /\ (Z.land e 192 =? 128) = (Z.testbit e 7 && negb (Z.testbit e 6)) /\
              (Z.land e 224 =? 192) = (Z.testbit e 7 && Z.testbit e 6 && negb (Z.testbit e 5))).
  { enough (Q : (Bool.eqb (Z.land e 128 =? 0) (negb (Z.testbit e 7)) && Bool.eqb (Z.land e 192 =? 128) (Z.testbit e 7 && negb (Z.testbit e 6)) &&
                 Bool.eqb (Z.land e 224 =? 192) (Z.testbit e 7 && Z.testbit e 6 && negb (Z.testbit e 5))) = true).
    { apply andb_prop in Q. destruct Q as (Q & Q3). apply andb_prop in Q. destruct Q as (Q1 & Q2).
      apply eqb_prop in Q1. apply eqb_prop in Q2. apply eqb_prop in Q3. auto. }
    clear E. revert e BE.
    apply (byte_all (fun e => (Bool.eqb (Z.land e 128 =? 0) (negb (Z.testbit e 7)) && Bool.eqb (Z.land e 192 =? 128) (Z.testbit e 7 && negb (Z.testbit e 6)) &&
                 Bool.eqb (Z.land e 224 =? 192) (Z.testbit e 7 && Z.testbit e 6 && negb (Z.testbit e 5))))). vm_compute. reflexivity. }
  destruct Q as (Q1 & Q2 & Q3). rewrite Q1, Q2, Q3.
  destruct (Z.testbit e 7), (Z.testbit e 6), (Z.testbit e 5); reflexivity.
Qed.
Lemma version_lemma u : is_uuid u -> version u = Ok (if (1 <=? version_bits u) && (version_bits u <=? 5) then version_bits u else -1).
Proof.
  intros (L & B). unfold version, version_bits.
  destruct (nth_error u 6) as [e|] eqn:E; [|apply nth_error_None in E; lia].
  unfold rd. rewrite E. cbn [bind]. rewrite (nth_error_nth _ _ 0 E). f_equal.
  assert (BE : is_byte e). { rewrite Forall_forall in B. apply B. eapply nth_error_In; exact E. }
  clear E. apply Z.eqb_eq. revert e BE.
  apply (byte_all (fun e => (if Z.land e 240 =? 16 then 1 else if Z.land e 240 =? 32 then 2 else if Z.land e 240 =? 48 then 3
    else if Z.land e 240 =? 64 then 4 else if Z.land e 240 =? 80 then 5 else -1) =?
    (if (1 <=? e / 16) && (e / 16 <=? 5) then e / 16 else -1))). vm_compute. reflexivity.
Qed.

(** ** Generators *)
Lemma stamp_byte e : is_byte e ->
  conv u8 (Z.lor (Z.land e 0x5F) 0x50) = 16 * 5 + e mod 16 /\ conv u8 (Z.lor (Z.land e 0x3F) 0x30) = 16 * 3 + e mod 16 /\
  conv u8 (Z.lor (Z.land e 0x4F) 0x40) = 16 * 4 + e mod 16 /\ conv u8 (Z.lor (Z.land e 0xBF) 0x80) = 128 + e mod 64.
Proof.
  intros B.
  enough (Q : ((conv u8 (Z.lor (Z.land e 0x5F) 0x50) =? 16 * 5 + e mod 16) && (conv u8 (Z.lor (Z.land e 0x3F) 0x30) =? 16 * 3 + e mod 16) &&
    (conv u8 (Z.lor (Z.land e 0x4F) 0x40) =? 16 * 4 + e mod 16) && (conv u8 (Z.lor (Z.land e 0xBF) 0x80) =? 128 + e mod 64)) = true).
  { apply andb_prop in Q. destruct Q as (Q & Q4). apply andb_prop in Q. destruct Q as (Q & Q3). apply andb_prop in Q. destruct Q as (Q1 & Q2).
    apply Z.eqb_eq in Q1, Q2, Q3, Q4. auto. }
  revert e B. apply (byte_all (fun e => ((conv u8 (Z.lor (Z.land e 0x5F) 0x50) =? 16 * 5 + e mod 16) && (conv u8 (Z.lor (Z.land e 0x3F) 0x30) =? 16 * 3 + e mod 16) &&
    (conv u8 (Z.lor (Z.land e 0x4F) 0x40) =? 16 * 4 + e mod 16) && (conv u8 (Z.lor (Z.land e 0xBF) 0x80) =? 128 + e mod 64)))).
  vm_compute. reflexivity.
Qed.

Lemma digest_to_uuid_ok am om ver v : (16 <= length v)%nat -> Forall is_byte v ->
  (forall e, is_byte e -> conv u8 (Z.lor (Z.land e am) om) = 16 * ver + e mod 16) ->
  digest_to_uuid am om v = Ok (stamp ver v).
Proof.
  intros L B H. do 16 (destruct v as [|? v]; [cbn in L; lia|]). unfold digest_to_uuid, rd.
  cbn [nth_error bind]. unfold stamp. cbn [firstn skipn nth app].
  repeat match goal with B : Forall _ (_ :: _) |- _ => inversion_clear B end.
  rewrite H by assumption. repeat match goal with X : is_byte ?e |- context [conv u8 (Z.lor (Z.land ?e 191) 128)] => rewrite (proj2 (proj2 (proj2 (stamp_byte e X)))) end.
  reflexivity.
Qed.

Lemma byte_mod x : is_byte (x mod 2 ^ 8).
Proof. unfold is_byte. apply Z.mod_pos_bound. reflexivity. Qed.
Lemma be32_ok w : length (be32 w) = 4%nat /\ Forall is_byte (be32 w).
Proof. split; [reflexivity|]. unfold be32. cbn [map]. repeat constructor; apply byte_mod. Qed.
Lemma le32_ok w : length (le32 w) = 4%nat /\ Forall is_byte (le32 w).
Proof. split; [reflexivity|]. unfold le32. cbn [map]. repeat constructor; apply byte_mod. Qed.
Lemma sha1_digest_ok msg : length (sha1_digest msg) = 20%nat /\ Forall is_byte (sha1_digest msg).
Proof.
  unfold sha1_digest. destruct (fold_left compress _ _) as [[[[h0 h1] h2] h3] h4]. rewrite !app_length, !(fun w => proj1 (be32_ok w)).
  split; [reflexivity|]. repeat (apply Forall_app; split); apply be32_ok.
Qed.
Lemma md5_digest_bits_ok msg : length (md5_digest_bits msg) = 16%nat /\ Forall is_byte (md5_digest_bits msg).
Proof.
  unfold md5_digest_bits. destruct (fold_left md_compress _ _) as [[[h0 h1] h2] h3]. rewrite !app_length, !(fun w => proj1 (le32_ok w)).
  split; [reflexivity|]. repeat (apply Forall_app; split); apply le32_ok.
Qed.

Lemma stamp_ok ver bs : 0 <= ver < 16 -> (16 <= length bs)%nat -> Forall is_byte bs ->
  is_uuid (stamp ver bs) /\ version_bits (stamp ver bs) = ver /\ exists b, variant_bits (stamp ver bs) = (true, false, b).
Proof.
  intros V L B. do 16 (destruct bs as [|? bs]; [cbn in L; lia|]).
  repeat match goal with B : Forall _ (_ :: _) |- _ => inversion_clear B end.
  unfold stamp, version_bits, variant_bits, is_uuid. cbn [firstn skipn nth app length].
  assert (M16 : forall e, 0 <= e mod 16 < 16) by (intros; apply Z.mod_pos_bound; lia).
  assert (M64 : forall e, 0 <= e mod 64 < 64) by (intros; apply Z.mod_pos_bound; lia).
  split; [split; [reflexivity|]|split].
  - repeat (apply Forall_cons; [try assumption|]); [..|apply Forall_nil]; unfold is_byte; change (2 ^ 8) with 256.
    + match goal with |- context [?e mod 16] => pose proof (M16 e) end. lia.
    + match goal with |- context [?e mod 64] => pose proof (M64 e) end. lia.
  - symmetry. eapply Z.div_unique; [left; apply M16|]. reflexivity.
  - match goal with |- context [Z.testbit (128 + ?e) 7] => assert (X : 0 <= e < 64) by apply M64; generalize dependent e end.
    intros e X. assert (Y : is_byte e) by (unfold is_byte; lia).
    exists (Z.testbit (128 + e) 5).
    assert (Q : ((64 <=? e) || (Z.testbit (128 + e) 7 && negb (Z.testbit (128 + e) 6))) = true).
    { revert e X Y. intros e _ Y. revert e Y. apply (byte_all (fun e => (64 <=? e) || (Z.testbit (128 + e) 7 && negb (Z.testbit (128 + e) 6)))). vm_compute. reflexivity. }
    destruct (64 <=? e) eqn:EE; [lia|]. cbn [orb] in Q. apply andb_prop in Q. destruct Q as (Q1 & Q2). rewrite Q1.
    destruct (Z.testbit (128 + e) 6); [discriminate|reflexivity].
Qed.

Lemma make_uuid5_lemma md r ns name : Forall is_byte ns -> Forall is_byte name ->
  (2 * length (ns ++ name) < r)%nat ->
  make_uuid5 md r ns name = Ok (stamp 5 (sha1_digest (ns ++ name))).
Proof.
  intros B1 B2 R.
  assert (C : List.concat (map piece_bytes [ByBlock ns; ByBlock name]) = ns ++ name) by (cbn; now rewrite app_nil_r).
  destruct (sha1_pieces_ok md r [ByBlock ns; ByBlock name]) as (s & E & _ & S).
  { rewrite C. apply Forall_app. now split. } { now rewrite C. }
  rewrite C in S. unfold make_uuid5, sha1_generator, sha1_name. cbn [feed_pieces feed_piece] in E.
  destruct (c_process_block md r sha1_new ns) as [g| |]; cbn [bind] in E |- *; try discriminate.
  destruct (c_process_block md r g name) as [g2| |]; cbn [bind] in E |- *; try discriminate. injection E as ->.
  rewrite S. cbn [bind]. destruct (sha1_digest_ok (ns ++ name)) as (L & B). apply digest_to_uuid_ok; [lia|exact B|]. intros e X. now apply stamp_byte.
Qed.
Lemma make_uuid3_lemma md ns name :
  make_uuid3 md ns name = Ok (stamp 3 (md5_digest (ns ++ name))).
Proof.
  destruct (md5_pieces_ok md [CBlock ns; CBlock name]) as (s & E & _ & S).
  { intros x n [[|[|[]]]|[|[|[]]]]; discriminate. }
  assert (C : List.concat (map md_piece_bits [CBlock ns; CBlock name]) = List.concat (map byte_bits (ns ++ name))).
  { cbn [map List.concat]. rewrite app_nil_r, map_app, concat_app. f_equal; cbn [md_piece_bits]; rewrite flat_map_concat_map; reflexivity. }
  rewrite C in S. unfold make_uuid3, md5_generator, md5_name. cbn [md_feed_pieces md_feed_piece] in E.
  destruct (md5_c_process_block md md5_new ns) as [g| |]; cbn [bind] in E |- *; try discriminate.
  destruct (md5_c_process_block md g name) as [g2| |]; cbn [bind] in E |- *; try discriminate. injection E as ->.
  rewrite S. cbn [bind]. unfold md5_digest. destruct (md5_digest_bits_ok (List.concat (map byte_bits (ns ++ name)))) as (L & B).
  apply digest_to_uuid_ok; [lia|exact B|]. intros e X. now apply stamp_byte.
Qed.

Lemma stamp_facts_lemma : forall msg,
  (let u := stamp 5 (sha1_digest msg) in is_uuid u /\ version u = Ok 5 /\ variant u = Ok Variant_rfc_4122) /\
  (let u := stamp 3 (md5_digest msg) in is_uuid u /\ version u = Ok 3 /\ variant u = Ok Variant_rfc_4122).
Proof.
  assert (G : forall ver bs, 1 <= ver <= 5 -> (16 <= length bs)%nat -> Forall is_byte bs ->
    is_uuid (stamp ver bs) /\ version (stamp ver bs) = Ok ver /\ variant (stamp ver bs) = Ok Variant_rfc_4122).
  { intros ver bs V L B. destruct (stamp_ok ver bs ltac:(lia) L B) as (U & VB & (b & XB)). split; [exact U|]. split.
    - rewrite version_lemma by exact U. rewrite VB. replace ((1 <=? ver) && (ver <=? 5)) with true by lia. reflexivity.
    - rewrite variant_lemma by exact U. now rewrite XB. }
  intros msg. split; cbv zeta; apply G; try lia; try apply sha1_digest_ok; try apply md5_digest_bits_ok.
  - rewrite (proj1 (sha1_digest_ok msg)). lia.
  - unfold md5_digest. rewrite (proj1 (md5_digest_bits_ok _)). lia.
Qed.

Lemma low_byte_ok v k : 0 <= k < 4 -> low_byte v (8 * k) = Ok (v / 2 ^ (8 * k) mod 2 ^ 8).
Proof.
  intros K. unfold low_byte, shr. change (wid u32) with 32. replace ((0 <=? 8 * k) && (8 * k <? 32)) with true by lia.
  cbn [bind]. rewrite Z.shiftr_div_pow2 by lia. change 0xFF with (Z.ones 8). rewrite Z.land_ones by lia.
  f_equal. unfold conv. cbn [sgn u8 andb]. change (wid u8) with 8. apply Z.mod_mod. discriminate.
Qed.
Lemma shr32_byte v k am om : 0 <= k < 4 -> 0 <= v < 2 ^ 32 -> 0 <= am < 2 ^ 8 ->
  shr u32 v (8 * k) = Ok (v / 2 ^ (8 * k)) /\
  Z.lor (Z.land (v / 2 ^ (8 * k)) am) om = Z.lor (Z.land (v / 2 ^ (8 * k) mod 2 ^ 8) am) om.
Proof.
  intros K V A. split.
  - unfold shr. change (wid u32) with 32. replace ((0 <=? 8 * k) && (8 * k <? 32)) with true by lia. now rewrite Z.shiftr_div_pow2 by lia.
  - f_equal. rewrite <- Z.land_ones by lia. rewrite <- Z.land_assoc. f_equal.
    rewrite Z.land_comm, Z.land_ones by lia. rewrite Z.mod_small by lia. reflexivity.
Qed.

Lemma make_uuid4_lemma {G : Type} (gen : G -> Z * G) g :
  (forall g, 0 <= fst (gen g) < 2 ^ 32) ->
  exists v0 v1 v2 v3, fst (draws gen 4 g) = [v0; v1; v2; v3] /\
    let u := stamp 4 (be32 v0 ++ be32 v1 ++ be32 v2 ++ be32 v3) in
    make_uuid4 gen g = Ok u /\ is_uuid u /\ version u = Ok 4 /\ variant u = Ok Variant_rfc_4122.
Proof.
  intros H. cbn [draws].
  pose proof (H g) as H0. destruct (gen g) as [v0 g1] eqn:E0.
  pose proof (H g1) as H1. destruct (gen g1) as [v1 g2] eqn:E1.
  pose proof (H g2) as H2. destruct (gen g2) as [v2 g3] eqn:E2.
  pose proof (H g3) as H3. destruct (gen g3) as [v3 g4] eqn:E3. cbn [fst] in *.
  exists v0, v1, v2, v3. split; [reflexivity|]. cbv zeta.
  assert (LB : (16 <= length (be32 v0 ++ be32 v1 ++ be32 v2 ++ be32 v3))%nat) by reflexivity.
  assert (BB : Forall is_byte (be32 v0 ++ be32 v1 ++ be32 v2 ++ be32 v3)) by (repeat (apply Forall_app; split); apply be32_ok).
  destruct (stamp_ok 4 _ ltac:(lia) LB BB) as (U & VB & (b & XB)). split; [|split; [exact U|split]].
  - unfold make_uuid4. rewrite E0. cbn [random_to_uuid length Nat.eqb snd fst app]. rewrite E1. cbn [snd fst app]. rewrite E2. cbn [snd fst app]. rewrite E3.
    cbn [snd fst app]. unfold rd. cbn [nth_error bind]. unfold random_to_uuid_1.
    change 24 with (8 * 3). change 16 with (8 * 2).
    change (low_byte v0 8) with (low_byte v0 (8 * 1)). change (low_byte v2 8) with (low_byte v2 (8 * 1)). change (low_byte v3 8) with (low_byte v3 (8 * 1)).
    change (low_byte v0 0) with (low_byte v0 (8 * 0)). change (low_byte v1 0) with (low_byte v1 (8 * 0)).
    change (low_byte v2 0) with (low_byte v2 (8 * 0)). change (low_byte v3 0) with (low_byte v3 (8 * 0)).
    change (shr u32 v1 8) with (shr u32 v1 (8 * 1)).
    rewrite !low_byte_ok by lia. cbn [bind].
    destruct (shr32_byte v1 1 0x4F 0x40) as (A1 & A2); [lia|assumption|lia|]. rewrite A1. cbn [bind]. rewrite A2.
    destruct (shr32_byte v2 3 0xBF 0x80) as (A3 & A4); [lia|assumption|lia|]. rewrite A3. cbn [bind]. rewrite A4.
    rewrite (proj1 (proj2 (proj2 (stamp_byte _ (byte_mod _))))), (proj2 (proj2 (proj2 (stamp_byte _ (byte_mod _))))). reflexivity.
  - rewrite version_lemma by exact U. now rewrite VB.
  - rewrite variant_lemma by exact U. now rewrite XB.
Qed.

(** ** Literals *)
Lemma ra_and_stops (test : nat -> nat -> res bool) d : forall first last j,
  (first <= j < last)%nat -> (forall i, (first <= i < j)%nat -> test i (S i) = Ok true) -> test j (S j) = Ok false ->
  (Nat.log2_up (last - first) < d)%nat -> ra_and d test first last ((last - first) / 2) = Ok false.
Proof.
  induction d as [|d IH]; intros first last j J T F D; [lia|]. cbn [ra_and].
  destruct (Nat.eqb_spec ((last - first) / 2) 0) as [E|E].
  - assert (last = S first). { assert (last - first < 2)%nat; [|lia]. destruct (Nat.lt_ge_cases (last - first) 2); [assumption|]. pose proof (Nat.div_le_mono 2 (last - first) 2 ltac:(lia) H). rewrite Nat.div_same in *; lia. }
    subst last. replace j with first in F by lia. exact F.
  - set (n := (last - first)%nat) in *.
    assert (N2 : (2 <= n)%nat). { destruct (Nat.lt_ge_cases n 2); [|assumption]. rewrite Nat.div_small in E by assumption. lia. }
    assert (H1 := log2_half n ltac:(lia)). assert (H2 := log2_half' n ltac:(lia)).
    assert (HN : (n / 2 < n)%nat) by (apply Nat.div_lt; lia).
    replace (n / 2 / 2)%nat with ((first + n / 2 - first) / 2)%nat by (f_equal; lia).
    destruct (Nat.lt_ge_cases j (first + n / 2)) as [C|C].
    + rewrite (IH first (first + n / 2)%nat j); [reflexivity|lia|exact T|exact F|]. replace (first + n / 2 - first)%nat with (n / 2)%nat by lia. lia.
    + rewrite (ra_and_ok test (fun _ => true)); [|lia|intros; apply T; lia|replace (first + n / 2 - first)%nat with (n / 2)%nat by lia; lia].
      assert (A : forallb (fun _ : nat => true) (seq first (first + n / 2 - first)) = true) by (apply forallb_forall; reflexivity).
      rewrite A. cbn [bind]. replace (n - n / 2)%nat with (last - (first + n / 2))%nat by lia.
      apply (IH _ _ j); [lia|intros; apply T; lia|exact F|]. replace (last - (first + n / 2))%nat with (n - n / 2)%nat by lia. lia.
Qed.

Lemma tolower_fold ct c : character c -> tolower ct c = fold_case c.
Proof.
  intros C. destruct (tolower_lemma ct c C) as (H1 & H2). unfold fold_case, Upper in *.
  destruct ((65 <=? c) && (c <=? 90)) eqn:E; [apply H1; lia|apply H2; lia].
Qed.

Fixpoint prefixb (s tok : list Z) : bool :=
  match s, tok with
  | [], _ => true
  | _ :: _, [] => false
  | x :: s, y :: tok => (fold_case x =? y) && prefixb s tok
  end.
Lemma prefixb_begins tok : forall s, prefixb s tok = true <-> begins tok s.
Proof.
  unfold begins. induction tok as [|y tok IH]; intros [|x s]; cbn [prefixb map].
  - split; [now exists 0%nat|reflexivity].
  - split; [discriminate|]. intros (n & E). rewrite firstn_nil in E. discriminate.
  - split; [now exists 0%nat|reflexivity].
  - rewrite andb_true_iff, IH, Z.eqb_eq. split.
    + intros (-> & n & ->). exists (S n). reflexivity.
    + intros ([|n] & E); [discriminate|]. cbn in E. injection E as A B. split; [exact A|now exists n].
Qed.

(** the position at which the comparison of [s] with a token ends *)
Lemma prefix_scan tok : forall s, Forall (fun c => fold_case c <> 0) s ->
  if prefixb s tok then (length s <= length tok)%nat /\ forall i, (i < length s)%nat -> fold_case (nth i s 0) = nth i (tok ++ [0]) 0
  else exists j, (j < length s)%nat /\ (j <= length tok)%nat /\ (forall i, (i < j)%nat -> fold_case (nth i s 0) = nth i (tok ++ [0]) 0) /\
         fold_case (nth j s 0) <> nth j (tok ++ [0]) 0.
Proof.
  induction tok as [|y tok IH]; intros [|x s] F; cbn [prefixb length].
  - split; [lia|]. intros; lia.
  - exists 0%nat. inversion_clear F. cbn. repeat split; try lia; assumption.
  - split; [lia|]. intros; lia.
  - inversion_clear F as [|? ? F1 F2]. destruct (Z.eqb_spec (fold_case x) y) as [E|E]; cbn [andb].
    + specialize (IH s F2). destruct (prefixb s tok).
      * destruct IH as (I1 & I2). split; [lia|]. intros [|i] I; [exact E|]. cbn. apply I2. lia.
      * destruct IH as (j & J1 & J2 & J3 & J4). exists (S j). split; [lia|]. split; [cbn; lia|]. split; [|exact J4].
        intros [|i] I; [exact E|]. cbn. apply J3. lia.
    + exists 0%nat. cbn. repeat split; try lia; exact E.
Qed.

Lemma range_equal_ok ct d s tok : letters s -> Forall (fun c => 0 <= c < 65 \/ 90 < c < 128) tok ->
  (depth_bound (length s) <= d)%nat ->
  range_equal_nocase ct d s (tok ++ [0]) = Ok (prefixb s tok).
Proof.
  intros (CH & NZ) TOK D.
  assert (T : forall y, In y (tok ++ [0]) -> tolower ct y = y).
  { intros y Y. assert (R : 0 <= y < 65 \/ 90 < y < 128).
    { apply in_app_or in Y. destruct Y as [Y|[<-|[]]]; [|lia].
      rewrite Forall_forall in TOK. exact (TOK y Y). }
    rewrite tolower_fold by (unfold character; lia). unfold fold_case. replace ((65 <=? y) && (y <=? 90)) with false by lia. reflexivity. }
  assert (NF : Forall (fun c => fold_case c <> 0) s).
  { revert NZ. apply Forall_impl. intros c C. unfold fold_case. destruct ((65 <=? c) && (c <=? 90)) eqn:E; lia. }
  unfold range_equal_nocase, equal. destruct (Nat.eqb_spec 0 (length s)) as [E|E].
  { destruct s; [reflexivity|discriminate]. }
  unfold equal_impl_ra. rewrite !Nat.sub_0_r.
  set (test := fun i (_ : nat) => x <- rd s i ;; y <- rd (tok ++ [0]) (0 + (i - 0)) ;; Ok (tolower ct x =? tolower ct y)).
  assert (TE : forall i z, (i < length s)%nat -> (i <= length tok)%nat -> test i z = Ok (fold_case (nth i s 0) =? nth i (tok ++ [0]) 0)).
  { intros i z I1 I2'. assert (I2 : (i < length (tok ++ [0%Z]))%nat) by (rewrite app_length; cbn [length]; lia). unfold test, rd. rewrite (nth_error_nth' s 0 I1). cbn [bind Nat.add]. rewrite Nat.sub_0_r.
    rewrite (nth_error_nth' (tok ++ [0]) 0 I2). cbn [bind]. rewrite (T (nth i (tok ++ [0]) 0)) by (apply nth_In; exact I2).
    rewrite tolower_fold; [reflexivity|]. rewrite Forall_forall in CH. apply CH. apply nth_In. exact I1. }
  replace (length s / 2)%nat with ((length s - 0) / 2)%nat by (f_equal; lia).
  pose proof (prefix_scan tok s NF) as P. destruct (prefixb s tok).
  - destruct P as (P1 & P2). rewrite (ra_and_ok test (fun _ => true)).
    + f_equal. apply forallb_forall. reflexivity.
    + lia.
    + intros i I. rewrite TE by lia. rewrite P2 by lia. now rewrite Z.eqb_refl.
    + rewrite Nat.sub_0_r. now apply depth_ra.
  - destruct P as (j & J1 & J2 & J3 & J4). apply (ra_and_stops test d 0 (length s) j).
    + lia.
    + intros i I. rewrite TE by lia. rewrite J3 by lia. now rewrite Z.eqb_refl.
    + rewrite TE by assumption. f_equal. now apply Z.eqb_neq.
    + rewrite Nat.sub_0_r. now apply depth_ra.
Qed.

Lemma literal_ok ct d s : letters s -> (depth_bound (length s) <= d)%nat -> (depth_bound 22 <= d)%nat ->
  literal_namespace ct d s =
    if prefixb s token_dns then Ok (Done uuid_dns) else if prefixb s token_url then Ok (Done uuid_url)
    else if prefixb s token_oid then Ok (Done uuid_oid) else if prefixb s token_x500 then Ok (Done uuid_x500)
    else literal_uuid d s.
Proof.
  intros LT D1 D2. unfold literal_namespace.
  change dns_token with (token_dns ++ [0]). rewrite range_equal_ok; [|exact LT|repeat (apply Forall_cons; [lia|]); apply Forall_nil|exact D1]. cbn [bind].
  destruct (prefixb s token_dns); [reflexivity|].
  change url_token with (token_url ++ [0]). rewrite range_equal_ok; [|exact LT|repeat (apply Forall_cons; [lia|]); apply Forall_nil|exact D1]. cbn [bind].
  destruct (prefixb s token_url); [reflexivity|].
  change oid_token with (token_oid ++ [0]). rewrite range_equal_ok; [|exact LT|repeat (apply Forall_cons; [lia|]); apply Forall_nil|exact D1]. cbn [bind].
  destruct (prefixb s token_oid); [reflexivity|].
  change x500_token with (token_x500 ++ [0]). rewrite range_equal_ok; [|exact LT|repeat (apply Forall_cons; [lia|]); apply Forall_nil|exact D1]. cbn [bind].
  destruct (prefixb s token_x500); reflexivity.
Qed.

Lemma prefixb_full tok s : map fold_case s = tok -> prefixb s tok = true.
Proof. intros H. apply prefixb_begins. exists (length tok). now rewrite firstn_all. Qed.
Lemma prefixb_head x s y tok : prefixb (x :: s) (y :: tok) = true -> fold_case x = y.
Proof. cbn. intros H. apply andb_prop in H. destruct H as (H & _). now apply Z.eqb_eq. Qed.

(** no text of a uuid begins like a token *)
Lemma denotes_no_prefix s u : denotes s u -> prefixb s token_dns = false /\ prefixb s token_url = false /\
  prefixb s token_oid = false /\ prefixb s token_x500 = false.
Proof.
  intros H. pose proof (denotes_length _ _ H) as L.
  assert (P : forall tok, (length tok < 5)%nat -> prefixb s tok = false).
  { intros tok T. destruct (prefixb s tok) eqn:E; [|reflexivity]. apply prefixb_begins in E. destruct E as (n & E).
    apply (f_equal (@length Z)) in E. rewrite map_length in E. rewrite firstn_length in E. lia. }
  repeat split; apply P; cbn; lia.
Qed.

Lemma literal_namespace_lemma ct d s u : letters s -> (depth_bound (length s) <= d)%nat -> (depth_bound 22 <= d)%nat ->
  names s u -> literal_namespace ct d s = Ok (Done u).
Proof.
  intros LT D1 D2 N. rewrite literal_ok by assumption.
  destruct N as [(E & ->)|[(E & ->)|[(E & ->)|[(E & ->)|N]]]].
  - now rewrite (prefixb_full token_dns s E).
  - rewrite (prefixb_full token_url s E). destruct (prefixb s token_dns) eqn:X; [|reflexivity].
    destruct s as [|x s]; [discriminate|]. apply prefixb_head in X. cbn in E. injection E as E _. rewrite E in X. discriminate.
  - rewrite (prefixb_full token_oid s E). destruct s as [|x s]; [discriminate|]. cbn in E. injection E as E _.
    destruct (prefixb (x :: s) token_dns) eqn:X; [apply prefixb_head in X; rewrite E in X; discriminate|].
    destruct (prefixb (x :: s) token_url) eqn:Y; [apply prefixb_head in Y; rewrite E in Y; discriminate|]. reflexivity.
  - rewrite (prefixb_full token_x500 s E). destruct s as [|x s]; [discriminate|]. cbn in E. injection E as E _.
    destruct (prefixb (x :: s) token_dns) eqn:X; [apply prefixb_head in X; rewrite E in X; discriminate|].
    destruct (prefixb (x :: s) token_url) eqn:Y; [apply prefixb_head in Y; rewrite E in Y; discriminate|].
    destruct (prefixb (x :: s) token_oid) eqn:W; [apply prefixb_head in W; rewrite E in W; discriminate|]. reflexivity.
  - destruct (denotes_no_prefix s u N) as (-> & -> & -> & ->). unfold literal_uuid.
    destruct (make_uuid_lemma d s 0 (length s)) as (x & E & X); [split; lia|exact D2|]. rewrite E. f_equal. apply X.
    exists s, []. split; [|exact N]. unfold slice. rewrite Nat.sub_0_r, app_nil_r. cbn [skipn]. apply firstn_all.
Qed.
(** and what else is accepted: beginnings of the names, and whatever make_uuid accepts *)
Lemma literal_rest_lemma ct d s : letters s -> (depth_bound (length s) <= d)%nat -> (depth_bound 22 <= d)%nat ->
  ~ begins token_dns s -> ~ begins token_url s -> ~ begins token_oid s -> ~ begins token_x500 s ->
  literal_namespace ct d s = make_uuid d s 0 (length s).
Proof.
  intros LT D1 D2 N1 N2 N3 N4. rewrite literal_ok by assumption.
  destruct (prefixb s token_dns) eqn:E1; [now apply prefixb_begins in E1|].
  destruct (prefixb s token_url) eqn:E2; [now apply prefixb_begins in E2|].
  destruct (prefixb s token_oid) eqn:E3; [now apply prefixb_begins in E3|].
  destruct (prefixb s token_x500) eqn:E4; [now apply prefixb_begins in E4|]. reflexivity.
Qed.
Lemma literal_bad_lemma : forall ct u,
  literal_namespace ct 12 [] = Ok (Done uuid_dns) /\ literal_namespace ct 12 [117] = Ok (Done uuid_url) /\ ~ names [] u /\ ~ names [117] u.
Proof.
  intros ct u. split; [reflexivity|]. split.
  { rewrite literal_ok; [reflexivity|split; repeat constructor; unfold character; lia|cbn; lia|cbn; lia]. }
  split; intros [(E & _)|[(E & _)|[(E & _)|[(E & _)|N]]]]; try discriminate; apply denotes_length in N; cbn in N; lia.
Qed.

(** ** Hashes *)
Lemma combine64_range seed h : is_word64 seed -> is_word64 (combine64 seed h).
Proof.
  unfold is_word64. intros S. unfold combine64. set (m := _ mod 2 ^ 64).
  assert (M : 0 <= m < 2 ^ 64) by (apply Z.mod_pos_bound; reflexivity).
  assert (X : 0 <= Z.lxor seed m) by (apply Z.lxor_nonneg; lia). split; [exact X|].
  destruct (Z.eq_dec (Z.lxor seed m) 0) as [->|N]; [reflexivity|].
  apply Z.log2_lt_pow2; [lia|]. eapply Z.le_lt_trans; [apply Z.log2_lxor; lia|].
  apply Z.max_lub_lt.
  - destruct (Z.eq_dec seed 0) as [->|]; [reflexivity|]. apply Z.log2_lt_pow2; lia.
  - destruct (Z.eq_dec m 0) as [->|]; [reflexivity|]. apply Z.log2_lt_pow2; lia.
Qed.
Lemma hash_combine1_ok seed h : is_word64 seed -> hash_combine1 seed h = Ok (combine64 seed h).
Proof.
  intros S. unfold hash_combine1, shl, shr. change (wid u64) with 64. change (sgn u64) with false.
  change ((0 <=? 6) && (6 <? 64)) with true. change ((0 <=? 2) && (2 <? 64)) with true. cbn [andb bind].
  unfold combine64, add64. rewrite !conv_u64. do 2 f_equal. rewrite Z.shiftr_div_pow2 by lia.
  rewrite Zplus_mod_idemp_r. rewrite !Zplus_mod_idemp_l.
  rewrite <- (Z.add_assoc (_ mod _)), Zplus_mod_idemp_l. f_equal. ring.
Qed.
Lemma combine64_inj seed h1 h2 : is_word64 h1 -> is_word64 h2 -> combine64 seed h1 = combine64 seed h2 -> h1 = h2.
Proof.
  unfold is_word64, combine64. intros H1 H2 E.
  assert (E2 : (h1 + 2654435769 + seed * 2 ^ 6 + seed / 2 ^ 2) mod 2 ^ 64 = (h2 + 2654435769 + seed * 2 ^ 6 + seed / 2 ^ 2) mod 2 ^ 64).
  { apply (f_equal (Z.lxor seed)) in E. now rewrite <- !Z.lxor_assoc, Z.lxor_nilpotent, !Z.lxor_0_l in E. }
  set (k := 2654435769 + seed * 2 ^ 6 + seed / 2 ^ 2) in *.
  replace (h1 + 2654435769 + seed * 2 ^ 6 + seed / 2 ^ 2) with (h1 + k) in E2 by (unfold k; ring).
  replace (h2 + 2654435769 + seed * 2 ^ 6 + seed / 2 ^ 2) with (h2 + k) in E2 by (unfold k; ring).
  assert (E3 : (h1 - h2) mod 2 ^ 64 = 0).
  { replace (h1 - h2) with ((h1 + k) - (h2 + k)) by ring. rewrite Zminus_mod, E2, Z.sub_diag. reflexivity. }
  apply Z.mod_divide in E3; [|discriminate]. destruct E3 as (q & Q). assert (q = 0) by nia. lia.
Qed.

Lemma hash_fold xs : forall s0, is_word64 s0 ->
  fold_left (fun a h => y <- a ;; hash_combine1 y h) xs (Ok s0) = Ok (fold_left combine64 xs s0) /\ is_word64 (fold_left combine64 xs s0).
Proof.
  induction xs as [|x xs IH]; intros s0 S; [split; [reflexivity|exact S]|]. cbn [fold_left bind]. rewrite hash_combine1_ok by exact S.
  apply IH. now apply combine64_range.
Qed.
Lemma hash_range_lemma c d seed l first last : valid l first last -> (depth_bound (last - first) <= d)%nat -> is_word64 seed ->
  hash_range c d seed l first last = Ok (fold_left combine64 (slice l first last) seed).
Proof.
  intros V D S. unfold hash_range. rewrite accumulate_correct_lemma by assumption. cbn [bind]. now apply hash_fold.
Qed.
Lemma hash_combine_lemma hs : forall seed h, is_word64 seed -> hash_combine seed h hs = Ok (fold_left combine64 (h :: hs) seed).
Proof.
  induction hs as [|h2 hs IH]; intros seed h S; cbn [hash_combine fold_left]; rewrite hash_combine1_ok by exact S; cbn [bind]; [reflexivity|].
  rewrite IH by (now apply combine64_range). reflexivity.
Qed.
(** ranges that differ in the last element only have different hashes *)
Lemma hash_last_lemma c d seed l1 l2 xs a b : is_word64 seed -> is_word64 a -> is_word64 b ->
  l1 = xs ++ [a] -> l2 = xs ++ [b] -> (depth_bound (length l1) <= d)%nat ->
  hash_range c d seed l1 0 (length l1) = hash_range c d seed l2 0 (length l2) -> a = b.
Proof.
  intros S A B -> -> D. rewrite !app_length in *. cbn [length] in *.
  rewrite !hash_range_lemma; try exact S; try (split; rewrite ?app_length; cbn [length]; lia); try (rewrite Nat.sub_0_r; exact D).
  unfold slice. cbn [skipn]. rewrite !Nat.sub_0_r. rewrite !firstn_all2 by (rewrite app_length; cbn [length]; lia).
  rewrite !fold_left_app. cbn [fold_left]. intros E. injection E as E. eapply combine64_inj; eassumption.
Qed.

(** ** A pointer to a terminated string *)
Lemma make_uuid_cstr_lemma d m p xs : cstr m p xs -> (depth_bound (length xs) <= d)%nat -> (depth_bound 22 <= d)%nat ->
  exists x, make_uuid_cstr d m p = Ok x /\ forall u, x = Done u <-> exists t rest, xs = t ++ rest /\ denotes t u.
Proof.
  intros C D1 D2. unfold make_uuid_cstr, traits_length. rewrite (strlen_lemma d m p xs C D1). cbn [bind].
  destruct C as (C1 & C2 & C3).
  assert (PL : (p + length xs < length m)%nat) by (apply nth_error_Some; congruence).
  destruct (make_uuid_lemma d m p (p + length xs)) as (x & E & X); [split; lia|exact D2|]. exists x. split; [exact E|].
  assert (SL : slice m p (p + length xs) = xs); [|now rewrite SL in X].
  unfold slice. replace (p + length xs - p)%nat with (length xs) by lia.
  apply lst_ext; [rewrite firstn_length, skipn_length; lia|].
  intros i I. rewrite firstn_length, skipn_length in I. assert (I' : (i < length xs)%nat) by lia.
  destruct (nth_error xs i) as [x0|] eqn:N; [|apply nth_error_None in N; lia]. pose proof (C1 i x0 N) as M.
  rewrite (nth_error_nth _ _ 0 N). apply nth_error_nth. rewrite ne_firstn by lia. rewrite ne_skipn. exact M.
Qed.
