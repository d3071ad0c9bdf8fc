(** Proofs about reading floating-point numbers. *)
From Coq Require Import List ZArith Bool QArith Qpower Lia ZifyBool.
From Verif Require Import Base CharModel CharSpec CharProof StfModel StfSpec.
Import ListNotations.
Local Open Scope Z_scope.

Lemma ten_step a b : (inject_Z a * inject_Z 10 + inject_Z b)%Q = inject_Z (a * 10 + b).
Proof. unfold inject_Z, Qplus, Qmult. cbn [Qnum Qden]. f_equal. lia. Qed.

Lemma skip_rd (m : list Z) pos c l : skipn pos m = c :: l -> rd m pos = Ok c /\ skipn (S pos) m = l.
Proof.
  revert m. induction pos as [|pos IH]; intros m H.
  - cbn [skipn] in H. subst m. now split.
  - destruct m as [|x m]; [discriminate|]. cbn [skipn] in H. destruct (IH m H) as [H1 H2]. split; [exact H1|exact H2].
Qed.

Lemma digit_char c : Digit c -> character c.
Proof. unfold Digit, character. lia. Qed.
Lemma digit_is c : Digit c -> isdigit c = true.
Proof. intros H. now apply isdigit_lemma; [apply digit_char|]. Qed.
Lemma digit_not c : character c -> ~ Digit c -> isdigit c = false.
Proof. intros C H. destruct (isdigit c) eqn:E; [|reflexivity]. now apply isdigit_lemma in E. Qed.

Lemma numeral_app ds a : forall n, fold_left (fun a c => a * 10 + (c - 48)) (ds ++ [a]) n =
  fold_left (fun a c => a * 10 + (c - 48)) ds n * 10 + (a - 48).
Proof. intros n. now rewrite fold_left_app. Qed.

Section Read.
  Variable m : list Z.
  Variables (lo hi : Z).
  Variable D : nat.

  (** *** scale *)
  Lemma scale_ok : forall d number e n p, 0 <= n < 2 ^ (Z.of_nat d - 1) -> ~ (p == 0)%Q -> (0 < d)%nat ->
    exists q, scale d number e n p = Ok q /\ (q == number * p ^ (if e <? 0 then - n else n))%Q.
  Proof.
    induction d as [|d IH]; intros number e n p Hn Hp Hd; [lia|]. cbn [scale]. destruct (n =? 0) eqn:E.
    - apply Z.eqb_eq in E. subst n. exists number. split; [reflexivity|]. destruct (e <? 0); cbn [Z.opp Qpower]; ring.
    - apply Z.eqb_neq in E. rewrite Z.shiftr_div_pow2 by lia. change (2 ^ 1) with 2.
      assert (Hd' : (0 < d)%nat) by (destruct d; [exfalso; change (Z.of_nat 1 - 1) with 0 in Hn; change (2 ^ 0) with 1 in Hn; lia|lia]).
      assert (B : 0 <= n / 2 < 2 ^ (Z.of_nat d - 1)).
      { split; [apply Z.div_pos; lia|]. apply Z.div_lt_upper_bound; [lia|]. rewrite <- Z.pow_succ_r by lia.
        replace (Z.succ (Z.of_nat d - 1)) with (Z.of_nat (S d) - 1) by lia. lia. }
      assert (Hpp : ~ (p * p == 0)%Q) by (intros Q; apply Qmult_integral in Q; tauto).
      set (number' := if Z.odd n then _ else _).
      destruct (IH number' e (n / 2) (p * p)%Q B Hpp Hd') as (q & Eq & Hq). exists q. split; [exact Eq|]. rewrite Hq.
      assert (PP : forall z, ((p * p) ^ z == p ^ (2 * z))%Q).
      { intros z. rewrite Qpower_mult. apply Qpower_comp; [|reflexivity]. cbn [Qpower Qpower_positive]. unfold Qpower_positive. cbn. reflexivity. }
      rewrite PP. pose proof (Z.div_mod n 2 ltac:(lia)) as DM. rewrite Zmod_odd in DM.
      unfold number'. destruct (Z.odd n); destruct (e <? 0).
      + replace (- n) with (-1 + 2 * - (n / 2)) by lia. rewrite Qpower_plus by exact Hp.
        setoid_replace (p ^ (-1))%Q with (/ p)%Q by reflexivity. unfold Qdiv. ring.
      + replace n with (1 + 2 * (n / 2)) at 2 by lia. rewrite Qpower_plus by exact Hp.
        setoid_replace (p ^ 1)%Q with p by reflexivity. ring.
      + replace (- n) with (2 * - (n / 2)) by lia. reflexivity.
      + replace n with (2 * (n / 2)) at 2 by lia. reflexivity.
  Qed.

  Lemma exponent_2_ok number e : lo <= e <= hi -> Z.abs e < 2 ^ (Z.of_nat D - 1) -> (0 < D)%nat ->
    exists q, exponent_2 lo hi D number e = Ok (Fin q) /\ (q == number * inject_Z 10 ^ e)%Q.
  Proof.
    intros H A HD. unfold exponent_2. replace ((lo <=? e) && (e <=? hi)) with true by lia.
    destruct (scale_ok D number e (if e <? 0 then - e else e) (inject_Z 10)) as (q & -> & Hq).
    - destruct (e <? 0) eqn:E; lia.
    - discriminate.
    - exact HD.
    - cbn [bind]. exists q. split; [reflexivity|]. rewrite Hq. destruct (e <? 0); [|reflexivity]. now rewrite Z.opp_involutive.
  Qed.

  Lemma exponent_2_huge number e : e < lo \/ hi < e -> exponent_2 lo hi D number e = Ok Huge.
  Proof. intros H. unfold exponent_2. now replace ((lo <=? e) && (e <=? hi)) with false by lia. Qed.

  (** *** digits *)
  Lemma exponent_1_ok neg number e : forall es d pos n c rest, Forall Digit es -> (length es < d)%nat ->
    skipn pos m = es ++ c :: rest -> character c -> ~ Digit c ->
    exponent_1 m lo hi D d pos neg number e n =
      exponent_2 lo hi D number (let n := fold_left (fun a c => a * 10 + (c - 48)) es n in if neg then e + n else e - n).
  Proof.
    induction es as [|x es IH]; intros d pos n c rest F L S C N; (destruct d as [|d]; [cbn [length] in L; lia|]);
      cbn [app] in S; apply skip_rd in S; destruct S as [R S]; cbn [exponent_1]; rewrite R; cbn [bind].
    - now rewrite digit_not.
    - inversion F; subst. rewrite digit_is by assumption. cbn [fold_left]. cbn [length] in L. now apply (IH d _ _ c rest); [assumption|lia|..].
  Qed.

  Lemma decimal_ok neg e : forall ds d pos n k j c rest, Forall Digit ds -> (length ds < d)%nat ->
    skipn pos m = ds ++ c :: rest -> character c -> ~ Digit c ->
    decimal m lo hi D d pos neg (inject_Z n) k j e =
      decimal_1 m lo hi D (pos + length ds) neg (inject_Z (fold_left (fun a c => a * 10 + (c - 48)) ds n)) (k + length ds)
        (e - Z.of_nat (j + length ds)).
  Proof.
    induction ds as [|x ds IH]; intros d pos n k j c rest F L S C N; (destruct d as [|d]; [cbn [length] in L; lia|]);
      cbn [app] in S; apply skip_rd in S; destruct S as [R S]; cbn [decimal]; rewrite R; cbn [bind].
    - rewrite digit_not by assumption. cbn [length fold_left]. now rewrite !Nat.add_0_r.
    - inversion F; subst. rewrite digit_is by assumption. rewrite ten_step. cbn [fold_left]. cbn [length] in L.
      rewrite (IH d _ _ _ _ c rest) by (assumption || lia). cbn [length]. f_equal; lia.
  Qed.

  Lemma impl_ok neg : forall ds d pos n k c rest, Forall Digit ds -> (length ds < d)%nat ->
    skipn pos m = ds ++ c :: rest -> character c -> ~ Digit c ->
    impl m lo hi D d pos neg (inject_Z n) k =
      let v := inject_Z (fold_left (fun a c => a * 10 + (c - 48)) ds n) in
      if c =? 46 then decimal m lo hi D D (S (pos + length ds)) neg v (k + length ds) 0 0
      else decimal_1 m lo hi D (pos + length ds) neg v (k + length ds) 0.
  Proof.
    induction ds as [|x ds IH]; intros d pos n k c rest F L S C N; (destruct d as [|d]; [cbn [length] in L; lia|]);
      cbn [app] in S; apply skip_rd in S; destruct S as [R S]; cbn [impl]; rewrite R; cbn [bind].
    - rewrite digit_not by assumption. cbn [length fold_left]. now rewrite !Nat.add_0_r.
    - inversion F; subst. rewrite digit_is by assumption. rewrite ten_step. cbn [fold_left]. cbn [length] in L.
      rewrite (IH d _ _ _ c rest) by (assumption || lia). cbn [length].
      replace (Datatypes.S pos + length ds)%nat with (pos + Datatypes.S (length ds))%nat by lia.
      replace (k + 1 + length ds)%nat with (k + Datatypes.S (length ds))%nat by lia. reflexivity.
  Qed.

  Lemma skipn_past {A} (l : list A) s t pos : skipn pos l = s ++ t -> skipn (pos + length s) l = t.
  Proof.
    revert pos. induction s as [|x s IH]; intros pos H; cbn [length app] in *.
    - now rewrite Nat.add_0_r.
    - rewrite <- Nat.add_succ_comm. apply IH. clear IH. revert l H. induction pos as [|pos IHp]; intros l H.
      + cbn [skipn] in *. subst l. reflexivity.
      + destruct l as [|y l]; [discriminate|]. cbn [skipn] in *. now apply IHp.
  Qed.

  Lemma unsigned_ok neg s di df pos c rest : unsigned_text s di df -> (length s < D)%nat ->
    skipn pos m = s ++ c :: rest -> character c -> ~ Digit c -> (c <> 46 \/ In 46 s) ->
    impl m lo hi D D pos neg (inject_Z 0) 0 =
      decimal_1 m lo hi D (pos + length s) neg (inject_Z (numeral (di ++ df))) (length (di ++ df)) (- Z.of_nat (length df)).
  Proof.
    intros U L S C N P. destruct U as [di F|di df F1 F2].
    - rewrite (impl_ok neg di D pos 0 0 c rest) by assumption. cbn zeta. destruct (c =? 46) eqn:E.
      + exfalso. apply Z.eqb_eq in E. destruct P as [P|P]; [contradiction|]. rewrite Forall_forall in F. specialize (F _ P). unfold Digit in F. lia.
      + rewrite app_nil_r. reflexivity.
    - rewrite <- app_assoc in S. cbn [app] in S. rewrite app_length in L. cbn [length] in L.
      rewrite (impl_ok neg di D pos 0 0 46 (df ++ c :: rest)); [|assumption|lia|exact S|unfold character; lia|unfold Digit; lia].
      cbn zeta. rewrite Z.eqb_refl. pose proof (skipn_past _ _ _ _ S) as S'. apply skip_rd in S'. destruct S' as [_ S'].
      rewrite (decimal_ok neg 0 df D _ _ _ 0 c rest) by (assumption || lia).
      rewrite !app_length. cbn [length]. unfold numeral. rewrite fold_left_app.
      replace (Datatypes.S (pos + length di) + length df)%nat with (pos + (length di + Datatypes.S (length df)))%nat by lia.
      reflexivity.
  Qed.

  Lemma text_ok s neg di df : decimal_text s neg di df -> forall d pos c rest, (length s < d)%nat -> (length s < D)%nat ->
    skipn pos m = s ++ c :: rest -> character c -> ~ Digit c -> ~ Space c -> c <> 43 -> c <> 45 -> (c <> 46 \/ In 46 s) ->
    str_to_float m lo hi D d pos =
      decimal_1 m lo hi D (pos + length s) neg (inject_Z (numeral (di ++ df))) (length (di ++ df)) (- Z.of_nat (length df)).
  Proof.
    induction 1 as [x s neg di df Hx T IH|x s neg di df Hx U|s di df U]; intros d pos c rest L LD S C N NS N1 N2 P.
    - destruct d as [|d]; [cbn [length] in L; lia|]. cbn [app] in S. apply skip_rd in S. destruct S as [R S]. cbn [str_to_float]. rewrite R. cbn [bind].
      assert (X : isspace x = true) by (apply isspace_lemma; [unfold character; unfold Space in Hx; lia|exact Hx]). rewrite X.
      cbn [length] in L, LD. rewrite (IH d _ c rest); try assumption; try lia.
      + cbn [length]. now replace (Datatypes.S pos + length s)%nat with (pos + Datatypes.S (length s))%nat by lia.
      + destruct P as [P|[P|P]]; [now left| |now right]. unfold Space in Hx. lia.
    - destruct d as [|d]; [cbn [length] in L; lia|]. cbn [app] in S. apply skip_rd in S. destruct S as [R S]. cbn [str_to_float]. rewrite R. cbn [bind].
      assert (X : isspace x = false).
      { destruct (isspace x) eqn:E; [|reflexivity]. apply isspace_lemma in E; [unfold Space in E; lia|unfold character; lia]. }
      rewrite X. cbn [length] in LD.
      assert (P' : c <> 46 \/ In 46 s) by (destruct P as [P|[P|P]]; [now left|lia|now right]).
      pose proof (unsigned_ok neg s di df (Datatypes.S pos) c rest U ltac:(lia) S C N P') as E.
      replace (Datatypes.S pos + length s)%nat with (pos + length (x :: s))%nat in E by (cbn [length]; lia).
      destruct Hx as [[-> ->]|[-> ->]]; exact E.
    - pose proof (unsigned_ok false s di df pos c rest U LD S C N P) as E. rewrite <- E.
      destruct d as [|d]; [lia|]. revert S. destruct (s ++ c :: rest) as [|y l] eqn:Es; [destruct s; discriminate|]. intros S.
      apply skip_rd in S. destruct S as [R S]. cbn [str_to_float]. rewrite R. cbn [bind].
      assert (Y : character y /\ ~ Space y /\ y <> 43 /\ y <> 45).
      { destruct s as [|z s]; cbn [app] in Es; injection Es as Ey _; subst y; [auto|].
        assert (Q : Digit z \/ z = 46).
        { inversion U as [di' F|di' df' F1 F2]; subst; [left; now inversion F|].
          destruct di as [|w di]; cbn [app] in H; injection H as Hz _; subst z; [now right|left; now inversion F1]. }
        destruct Q as [Q|Q]; unfold Digit, Space, character in *; lia. }
      destruct Y as (Y1 & Y2 & Y3 & Y4).
      assert (X : isspace y = false) by (destruct (isspace y) eqn:E'; [now apply isspace_lemma in E'|reflexivity]).
      rewrite X. replace (y =? 45) with false by lia. now replace (y =? 43) with false by lia.
  Qed.
End Read.

Lemma value_sign (neg : bool) (n : Z) : (if neg then - inject_Z n else inject_Z n)%Q = inject_Z ((if neg then -1 else 1) * n).
Proof. destruct neg; unfold inject_Z, Qopp; cbn [Qnum Qden]; f_equal; lia. Qed.

Lemma small_pow k d : (k < d)%nat -> Z.of_nat k < 2 ^ (Z.of_nat d - 1).
Proof.
  intros H. pose proof (Z.pow_gt_lin_r 2 (Z.of_nat d - 1) ltac:(lia)). lia.
Qed.

Lemma unsigned_length s di df : unsigned_text s di df -> (length df <= length s)%nat.
Proof. intros U. destruct U; rewrite ?app_length; cbn [length]; lia. Qed.

Lemma text_length s neg di df : decimal_text s neg di df -> (length df <= length s)%nat.
Proof.
  intros T. induction T as [x s neg di df _ _ IH|x s neg di df _ U|s di df U]; cbn [length];
    try (apply unsigned_length in U); lia.
Qed.

Section Theorems.
  Variables (s rest : list Z) (neg : bool) (di df : list Z) (lo hi : Z) (D : nat).
  Hypotheses (T : decimal_text s neg di df) (B : lo <= 0 <= hi).

  Lemma strtod_decimal_s c : character c -> ~ Digit c -> ~ Space c -> c <> 43 -> c <> 45 -> (c <> 46 \/ In 46 s) ->
    c <> 101 -> c <> 69 -> di ++ df <> [] -> (length s < D)%nat ->
    if - Z.of_nat (length df) <? lo then strtod (s ++ c :: rest) lo hi D = Ok Huge
    else exists q, strtod (s ++ c :: rest) lo hi D = Ok (Fin q) /\ (q == text_value neg di df 0)%Q.
  Proof.
    intros C N NS N1 N2 P E1 E2 NE L. unfold strtod.
    pose proof (text_length s neg di df T) as LF.
    rewrite (text_ok _ lo hi D s neg di df T D 0 c rest) by (assumption || reflexivity). cbn [Nat.add].
    unfold decimal_1. destruct (length (di ++ df) =? 0)%nat eqn:Z0.
    { apply Nat.eqb_eq in Z0. apply length_zero_iff_nil in Z0. contradiction. }
    rewrite value_sign. unfold exponent_0. pose proof (skipn_past (s ++ c :: rest) s (c :: rest) 0 eq_refl) as S. cbn [Nat.add] in S.
    apply skip_rd in S. destruct S as [-> _]. cbn [bind]. replace ((c =? 101) || (c =? 69)) with false by lia.
    destruct (- Z.of_nat (length df) <? lo) eqn:R.
    - apply exponent_2_huge. lia.
    - destruct (exponent_2_ok lo hi D (inject_Z ((if neg then -1 else 1) * numeral (di ++ df))) (- Z.of_nat (length df))) as (q & Eq & Hq).
      + lia.
      + rewrite Z.abs_opp, Z.abs_eq by lia. apply small_pow. lia.
      + lia.
      + exists q. split; [exact Eq|]. rewrite Hq. unfold text_value. reflexivity.
  Qed.

  Lemma strtod_exponent_s e g es c : e = 101 \/ e = 69 -> Forall Digit es -> character c -> ~ Digit c ->
    di ++ df <> [] -> (length s + length es < D)%nat ->
    let x := if g =? 45 then numeral es else - numeral es in
    lo <= x - Z.of_nat (length df) <= hi -> Z.abs (x - Z.of_nat (length df)) < 2 ^ (Z.of_nat D - 1) ->
    exists q, strtod (s ++ e :: g :: es ++ c :: rest) lo hi D = Ok (Fin q) /\ (q == text_value neg di df x)%Q.
  Proof.
    intros He Fe C N NE L x HB HA. unfold strtod.
    rewrite (text_ok _ lo hi D s neg di df T D 0 e (g :: es ++ c :: rest)); try reflexivity; try lia;
      try (unfold character, Digit, Space; lia). cbn [Nat.add].
    unfold decimal_1. destruct (length (di ++ df) =? 0)%nat eqn:Z0.
    { apply Nat.eqb_eq in Z0. apply length_zero_iff_nil in Z0. contradiction. }
    rewrite value_sign. unfold exponent_0. set (m := s ++ e :: g :: es ++ c :: rest).
    pose proof (skipn_past m s (e :: g :: es ++ c :: rest) 0 eq_refl) as S. cbn [Nat.add] in S.
    apply skip_rd in S. destruct S as [-> S]. apply skip_rd in S. destruct S as [-> S]. cbn [bind].
    replace ((e =? 101) || (e =? 69)) with true by lia. replace (Datatypes.S (Datatypes.S (length s))) with (length s + 2)%nat in S by lia.
    destruct (exponent_2_ok lo hi D (inject_Z ((if neg then -1 else 1) * numeral (di ++ df))) (x - Z.of_nat (length df))) as (q & Eq & Hq);
      [exact HB|exact HA|lia|].
    exists q. split; [|exact Hq]. rewrite <- Eq. unfold x.
    destruct (g =? 45); rewrite (exponent_1_ok m lo hi D _ _ _ es D _ 0 c rest) by (assumption || lia); cbn zeta; f_equal; unfold numeral; lia.
  Qed.

  Lemma strtod_none_s c : character c -> ~ Digit c -> ~ Space c -> c <> 43 -> c <> 45 -> (c <> 46 \/ In 46 s) ->
    di ++ df = [] -> (length s < D)%nat -> strtod (s ++ c :: rest) lo hi D = Ok (Fin 0).
  Proof.
    intros C N NS N1 N2 P NE L. unfold strtod.
    rewrite (text_ok _ lo hi D s neg di df T D 0 c rest) by (assumption || reflexivity). now rewrite NE.
  Qed.
End Theorems.

Lemma strtod_exponent_zero (s rest : list Z) (neg : bool) (di df : list Z) (lo hi : Z) (D : nat) :
  decimal_text s neg di df -> forall (e g : Z) (es : list Z) (c : Z), e = 101 \/ e = 69 -> g = 43 \/ g = 45 ->
  Forall Digit es -> character c -> ~ Digit c -> di ++ df <> [] -> (length s + length es < D)%nat ->
  numeral es = 0 -> lo <= - Z.of_nat (length df) -> 0 <= hi ->
  exists q, strtod (s ++ e :: g :: es ++ c :: rest) lo hi D = Ok (Fin q) /\
    (q == text_value neg di df (if g =? 45 then - numeral es else numeral es))%Q.
Proof.
  intros T e g es c He Hg F C N NE L Z0 B1 B2.
  pose proof (text_length s neg di df T) as LF.
  pose proof (strtod_exponent_s s rest neg di df lo hi D T e g es c He F C N NE L) as H. cbn zeta in H. rewrite Z0 in *.
  replace (if g =? 45 then 0 else - 0) with 0 in H by (destruct (g =? 45); reflexivity).
  replace (if g =? 45 then - 0 else 0) with 0 by (destruct (g =? 45); reflexivity).
  apply H; [lia|]. replace (0 - Z.of_nat (length df)) with (- Z.of_nat (length df)) by lia.
  rewrite Z.abs_opp, Z.abs_eq by lia. apply small_pow. lia.
Qed.

Lemma strtod_tiny_s : exists (s : list Z) (df : list Z), decimal_text s false [48] df /\
  strtod (s ++ [0]) (-1021) 1024 2000 = Ok Huge /\ Qeq (text_value false [48] df 0) 0.
Proof.
  set (df := repeat 48 1022). exists ([48] ++ 46 :: df), df.
  assert (F : Forall Digit df) by (apply Forall_forall; intros x Hx; apply repeat_spec in Hx; subst x; split; discriminate).
  split; [|split].
  - apply dt_none. apply ut_point; [repeat constructor; discriminate|exact F].
  - vm_compute. reflexivity.
  - unfold text_value. replace (numeral ([48] ++ df)) with 0 by (vm_compute; reflexivity). cbn [Z.mul]. ring.
Qed.

Lemma strtod_exponent_refuted_s :
  (exists q, strtod [49; 101; 43; 50; 0] (-1021) 1024 20 = Ok (Fin q) /\ ~ Qeq q (text_value false [49] [] 2)) /\
  (exists q, strtod [49; 101; 45; 50; 0] (-1021) 1024 20 = Ok (Fin q) /\ ~ Qeq q (text_value false [49] [] (-2))) /\
  (exists q, strtod [49; 101; 50; 0] (-1021) 1024 20 = Ok (Fin q) /\ ~ Qeq q (text_value false [49] [] 2)) /\
  strtod [49; 101; 0] (-1021) 1024 20 = UB.
Proof.
  split; [|split; [|split]]; [eexists; split; [vm_compute; reflexivity|vm_compute; discriminate]..|vm_compute; reflexivity].
Qed.
