(** Proofs about the uniform integer distributions: no result is preferred. *)
From Coq Require Import List Arith ZArith Bool Lia.
From Verif Require Import Base BitModel BitSpec BitProof ShaModel RatModel LcgProof3 MtProof LfsrModel LfsrSpec LfsrProof UniModel UniSpec UniProof.
Import ListNotations.
Open Scope Z_scope.

Lemma pow_between be j i n : 2 <= be -> 0 <= j -> 0 <= i -> be ^ j <= n < be ^ j * be -> be ^ i <= n < be ^ i * be -> i = j.
Proof.
  intros G J K A C. rewrite <- (Z.mul_comm be), <- Z.pow_succ_r in A, C by lia.
  assert (i < Z.succ j) by (apply (Z.pow_lt_mono_r_iff be); lia). assert (j < Z.succ i) by (apply (Z.pow_lt_mono_r_iff be); lia). lia.
Qed.

Section Gen.
  Variables bmin bmax : Z.
  Hypothesis Hb : bmin < bmax.
  Notation be := (beta bmin bmax).
  Notation number := (number bmin bmax).

  Lemma be_2 : 2 <= be. Proof. unfold beta. lia. Qed.
  Lemma num_range ds : Forall (fun d => 0 <= d < be) ds -> 0 <= number ds < be ^ Z.of_nat (length ds).
  Proof.
    pose proof be_2 as G. induction 1 as [|d ds D _ IH]; [cbn [UniSpec.number length]; rewrite Z.pow_0_r; lia|].
    cbn [UniSpec.number length]. rewrite Nat2Z.inj_succ, Z.pow_succ_r by lia. nia.
  Qed.
  Lemma number_inj ds : forall ds', length ds = length ds' -> Forall (fun d => 0 <= d < be) ds -> Forall (fun d => 0 <= d < be) ds' ->
    number ds = number ds' -> ds = ds'.
  Proof.
    pose proof be_2 as G.
    induction ds as [|d ds IH]; intros [|d' ds'] L F F' N; cbn [length] in L; try discriminate; [reflexivity|].
    inversion_clear F as [|? ? D1 D2]. inversion_clear F' as [|? ? E1 E2]. cbn [UniSpec.number] in N.
    assert (number ds = number ds') by nia. f_equal; [nia|]. apply IH; [lia|assumption|assumption|assumption].
  Qed.
  Lemma number_surj j : forall x, 0 <= x < be ^ Z.of_nat j -> exists ds, length ds = j /\ Forall (fun d => 0 <= d < be) ds /\ number ds = x.
  Proof.
    pose proof be_2 as G. induction j as [|j IH]; intros x X.
    - exists []. rewrite Z.pow_0_r in X. split; [reflexivity|]. split; [constructor|]. cbn [UniSpec.number]. lia.
    - rewrite Nat2Z.inj_succ, Z.pow_succ_r in X by lia.
      destruct (IH (x / be)) as (ds & L & F & N).
      { split; [apply Z.div_pos; lia|]. apply Z.div_lt_upper_bound; lia. }
      pose proof (Z.mod_pos_bound x be ltac:(lia)) as M. exists (x mod be :: ds). cbn [length UniSpec.number]. split; [lia|].
      split; [constructor; assumption|]. rewrite N. pose proof (Z.div_mod x be ltac:(lia)). lia.
  Qed.

  Section Det.
    Variable St : Type.
    Variable step : St -> res (Z * St).
    Notation draws1 := (draws1 St step bmin bmax).
    Notation draws := (draws St step bmin bmax).
    Notation uniform := (uniform St step bmin bmax).
    Lemma draws1_det s d s' d2 s2 : draws1 s d s' -> draws1 s d2 s2 -> d = d2 /\ s' = s2.
    Proof. intros [_ H] [_ K]. rewrite H in K. inversion K. split; [lia|reflexivity]. Qed.
    Lemma draws_det s ds s' : draws s ds s' -> forall ds2 s2, draws s ds2 s2 -> length ds = length ds2 -> ds = ds2 /\ s' = s2.
    Proof.
      induction 1 as [s|s d s1 ds s2 H _ IH]; intros ds2 s3 K L.
      - destruct ds2; [inversion K; auto|discriminate].
      - destruct ds2 as [|d2 ds2]; [discriminate|]. inversion K; subst. cbn [length] in L.
        match goal with Q : draws1 s d2 _ |- _ => destruct (draws1_det _ _ _ _ _ H Q) as [-> ->] end.
        match goal with Q : draws _ ds2 s3 |- _ => destruct (IH _ _ Q ltac:(lia)) as [-> ->] end. auto.
    Qed.
    Lemma draws_forall s ds s' : draws s ds s' -> Forall (fun d => 0 <= d < be) ds.
    Proof. induction 1 as [|s d s1 ds s2 [H _] _ IH]; constructor; assumption. Qed.

    Lemma uniform_det cst n s v s' : uniform cst n s v s' -> forall v2 s2, uniform cst n s v2 s2 -> v = v2 /\ s' = s2.
    Proof.
      pose proof be_2 as G.
      induction 1 as [s|s s1 d s2 H1 H2 H3|n s d s1 H1 H2 H3|n s d s1 v s2 H1 H2 H3 _ IH|n s ds s1 H1 H2 H3|n s ds s1 i s2 m H1 H2 H3 H4 U1 IH H5|n s ds s1 i s2 m v s3 H1 H2 H3 H4 U1 IH H5 U2 IH2];
        intros v' s' U.
      - inversion U; subst; try lia. auto.
      - inversion U as [|? s3 d' s4 K1 K2 K3| | | | |]; subst; try lia.
        assert (s1 = s3). { destruct cst; [congruence|]. destruct H2 as [e H2], K2 as [e' K2]. apply (draws1_det _ _ _ _ _ H2 K2). }
        subst s3. apply (draws1_det _ _ _ _ _ H3 K3).
      - inversion U as [|? ? ? ? ? ? ?|? ? d' s2 K1 K2 K3|? ? d' s2 ? ? K1 K2 K3 K4| | |]; subst; try lia.
        + destruct (draws1_det _ _ _ _ _ H2 K2) as [-> ->]. auto.
        + destruct (draws1_det _ _ _ _ _ H2 K2) as [-> ->]. lia.
      - inversion U as [|? ? ? ? ? ? ?|? ? d' s3 K1 K2 K3|? ? d' s3 ? ? K1 K2 K3 K4| | |]; subst; try lia.
        + destruct (draws1_det _ _ _ _ _ H2 K2) as [-> ->]. lia.
        + destruct (draws1_det _ _ _ _ _ H2 K2) as [-> ->]. apply IH, K4.
      - inversion U as [| | | |? ? ds' s2 K1 K2 K3|? ? ds' s2 i' s3 m' K1 K2 K3 K4 K5 K6|? ? ds' s2 i' s3 m' v2 s4 K1 K2 K3 K4 K5 K6 K7]; subst; try lia.
        + assert (L : Z.of_nat (length ds') = Z.of_nat (length ds)) by (apply (pow_between be _ _ (be ^ Z.of_nat (length ds))); nia).
          destruct (draws_det _ _ _ H2 _ _ K2 ltac:(lia)) as [-> ->]. auto.
        + assert (L : Z.of_nat (length ds') = Z.of_nat (length ds)) by (apply (pow_between be _ _ (be ^ Z.of_nat (length ds))); nia). rewrite L in K4. lia.
        + assert (L : Z.of_nat (length ds') = Z.of_nat (length ds)) by (apply (pow_between be _ _ (be ^ Z.of_nat (length ds))); nia). rewrite L in K4. lia.
      - inversion U as [| | | |? ? ds' s3 K1 K2 K3|? ? ds' s3 i' s4 m' K1 K2 K3 K4 K5 K6|? ? ds' s3 i' s4 m' v2 s5 K1 K2 K3 K4 K5 K6 K7]; subst; try lia.
        + assert (L : Z.of_nat (length ds') = Z.of_nat (length ds)) by (apply (pow_between be _ _ (be ^ Z.of_nat (length ds'))); nia). rewrite L in H4. lia.
        + assert (L : Z.of_nat (length ds') = Z.of_nat (length ds)) by (apply (pow_between be _ _ n); nia).
          destruct (draws_det _ _ _ H2 _ _ K2 ltac:(lia)) as [<- <-]. destruct (IH _ _ K5) as [-> ->]. auto.
        + assert (L : Z.of_nat (length ds') = Z.of_nat (length ds)) by (apply (pow_between be _ _ n); nia).
          destruct (draws_det _ _ _ H2 _ _ K2 ltac:(lia)) as [<- <-]. destruct (IH _ _ K5) as [-> ->]. lia.
      - inversion U as [| | | |? ? ds' s4 K1 K2 K3|? ? ds' s4 i' s5 m' K1 K2 K3 K4 K5 K6|? ? ds' s4 i' s5 m' v2 s6 K1 K2 K3 K4 K5 K6 K7]; subst; try lia.
        + assert (L : Z.of_nat (length ds') = Z.of_nat (length ds)) by (apply (pow_between be _ _ (be ^ Z.of_nat (length ds'))); nia). rewrite L in H4. lia.
        + assert (L : Z.of_nat (length ds') = Z.of_nat (length ds)) by (apply (pow_between be _ _ n); nia).
          destruct (draws_det _ _ _ H2 _ _ K2 ltac:(lia)) as [<- <-]. destruct (IH _ _ K5) as [-> ->]. lia.
        + assert (L : Z.of_nat (length ds') = Z.of_nat (length ds)) by (apply (pow_between be _ _ n); nia).
          destruct (draws_det _ _ _ H2 _ _ K2 ltac:(lia)) as [<- <-]. destruct (IH _ _ K5) as [-> ->]. apply IH2, K7.
    Qed.

    (** the two overloads *)
    Lemma uniform_paths c c' n s v s' : uniform c n s v s' -> (forall j, 0 <= j -> (n - 1) / be ^ j <> be - 1) -> uniform c' n s v s'.
    Proof.
      pose proof be_2 as G.
      assert (Q : forall n m l, m = be ^ Z.of_nat l -> (forall j, 0 <= j -> (n - 1) / be ^ j <> be - 1) ->
                  forall j, 0 <= j -> ((n - 1) / m + 1 - 1) / be ^ j <> be - 1).
      { clear - G. intros n m l -> H j J. rewrite Z.add_simpl_r, Z.div_div by (apply Z.pow_nonzero || apply Z.pow_pos_nonneg; lia).
        rewrite <- Z.pow_add_r by lia. apply H. lia. }
      induction 1 as [s|s s1 d s2 H1 H2 H3|n s d s1 H1 H2 H3|n s d s1 v s2 H1 H2 H3 _ IH|n s ds s1 H1 H2 H3|n s ds s1 i s2 m H1 H2 H3 H4 U1 IH H5|n s ds s1 i s2 m v s3 H1 H2 H3 H4 U1 IH H5 U2 IH2];
        intros C.
      - constructor.
      - exfalso. apply (C 0 ltac:(lia)). rewrite Z.pow_0_r, Z.div_1_r. reflexivity.
      - apply uniform_bucket; assumption.
      - eapply uniform_retry; [eassumption|eassumption|eassumption|apply IH, C].
      - apply uniform_power; assumption.
      - eapply uniform_wide; try eassumption. apply IH. eapply Q; eassumption.
      - eapply uniform_wide_retry; try eassumption; [apply IH; eapply Q; eassumption|apply IH2, C].
    Qed.
  End Det.

  (** ** runs on a tape *)
  Section Tape.
    Variable cst : bool.
    Notation U := (uniform (list Z) tape bmin bmax cst).
    Notation dr := (draws (list Z) tape bmin bmax).
    Notation dr1 := (draws1 (list Z) tape bmin bmax).
    Definition enc (ds : list Z) : list Z := map (Z.add bmin) ds.

    Lemma dr1_intro d r : 0 <= d < be -> dr1 (bmin + d :: r) d r.
    Proof. intros D. split; [exact D|reflexivity]. Qed.
    Lemma dr1_elim s d s' : dr1 s d s' -> 0 <= d < be /\ s = bmin + d :: s'.
    Proof. intros [D H]. split; [exact D|]. destruct s; [discriminate|]. cbn [tape] in H. congruence. Qed.
    Lemma dr_intro ds r : Forall (fun d => 0 <= d < be) ds -> dr (enc ds ++ r) ds r.
    Proof. induction 1 as [|d ds D _ IH]; [constructor|]. eapply draws_cons; [apply dr1_intro, D|exact IH]. Qed.
    Lemma dr_elim s ds s' : dr s ds s' -> s = enc ds ++ s'.
    Proof. induction 1 as [|s d s1 ds s2 H _ IH]; [reflexivity|]. apply dr1_elim in H as [_ ->]. rewrite IH. reflexivity. Qed.
    Lemma enc_length ds : length (enc ds) = length ds. Proof. apply map_length. Qed.
    Lemma enc_inj ds : forall ds' r r', length ds = length ds' -> enc ds ++ r = enc ds' ++ r' -> ds = ds' /\ r = r'.
    Proof.
      induction ds as [|d ds IH]; intros [|d' ds'] r r' L H; cbn [length] in L; try discriminate; [auto|].
      cbn [enc map app] in H. inversion H as [[Hd Hr]]. destruct (IH ds' r r' ltac:(lia) Hr) as [-> ->]. split; [f_equal; lia|reflexivity].
    Qed.

    Lemma dr1_app s d s' r : dr1 s d s' -> dr1 (s ++ r) d (s' ++ r).
    Proof. intros H. apply dr1_elim in H as [D ->]. apply dr1_intro, D. Qed.
    Lemma dr_app s ds s' r : dr s ds s' -> dr (s ++ r) ds (s' ++ r).
    Proof. intros H. rewrite (dr_elim _ _ _ H), <- app_assoc. apply dr_intro. eapply draws_forall, H. Qed.
    Lemma U_app n s v s' r : U n s v s' -> U n (s ++ r) v (s' ++ r).
    Proof.
      induction 1 as [s|s s1 d s2 H1 H2 H3|n s d s1 H1 H2 H3|n s d s1 v s2 H1 H2 H3 _ IH|n s ds s1 H1 H2 H3|n s ds s1 i s2 m H1 H2 H3 H4 U1 IH H5|n s ds s1 i s2 m v s3 H1 H2 H3 H4 U1 IH H5 U2 IH2].
      - constructor.
      - eapply uniform_same; [exact H1| |apply dr1_app, H3].
        destruct cst; [congruence|]. destruct H2 as [e H2]. exists e. apply dr1_app, H2.
      - apply uniform_bucket; [exact H1|apply dr1_app, H2|exact H3].
      - eapply uniform_retry; [exact H1|apply dr1_app, H2|exact H3|exact IH].
      - apply uniform_power; [exact H1|apply dr_app, H2|exact H3].
      - eapply uniform_wide; [exact H1|apply dr_app, H2|exact H3|exact H4|exact IH|exact H5].
      - eapply uniform_wide_retry; [exact H1|apply dr_app, H2|exact H3|exact H4|exact IH|exact H5|exact IH2].
    Qed.

    (** the values that give [v] in place of [u] *)
    Inductive sw : Z -> Z -> Z -> list Z -> list Z -> Prop :=
    | sw_one : sw 1 0 0 [] []
    | sw_same : forall p u v, 0 <= u < be -> 0 <= v < be -> (if cst then p = [] else exists d, 0 <= d < be /\ p = [bmin + d]) ->
        sw be u v (p ++ [bmin + u]) (p ++ [bmin + v])
    | sw_bucket : forall n o u v, 1 < n < be -> 0 <= o < be / n -> 0 <= u < n -> 0 <= v < n ->
        sw n u v [bmin + (u * (be / n) + o)] [bmin + (v * (be / n) + o)]
    | sw_retry : forall n d u v a c, 1 < n < be -> 0 <= d < be -> n <= d / (be / n) -> sw n u v a c -> sw n u v (bmin + d :: a) (bmin + d :: c)
    | sw_power : forall n ds es, be < n -> Forall (fun d => 0 <= d < be) ds -> Forall (fun d => 0 <= d < be) es ->
        length es = length ds -> be ^ Z.of_nat (length ds) = n -> sw n (number ds) (number es) (enc ds) (enc es)
    | sw_wide : forall n ds es m i j a c, be < n -> Forall (fun d => 0 <= d < be) ds -> Forall (fun d => 0 <= d < be) es ->
        length es = length ds -> m = be ^ Z.of_nat (length ds) -> m < n < m * be -> sw ((n - 1) / m + 1) i j a c ->
        number ds + m * i < n -> number es + m * j < n ->
        sw n (number ds + m * i) (number es + m * j) (enc ds ++ a) (enc es ++ c)
    | sw_wide_retry : forall n ds m i p u v a c, be < n -> Forall (fun d => 0 <= d < be) ds ->
        m = be ^ Z.of_nat (length ds) -> m < n < m * be -> U ((n - 1) / m + 1) p i [] -> n <= number ds + m * i ->
        sw n u v a c -> sw n u v (enc ds ++ p ++ a) (enc ds ++ p ++ c).

    Lemma sw_sym n u v a c : sw n u v a c -> sw n v u c a.
    Proof.
      induction 1 as [|p u v H1 H2 H3|n o u v H1 H2 H3 H4|n d u v a c H1 H2 H3 _ IH|n ds es H1 H2 H3 H4 H5|n ds es m i j a c H1 H2 H3 H4 H5 H6 _ IH H7 H8|n ds m i p u v a c H1 H2 H3 H4 H5 H6 _ IH].
      - constructor.
      - apply sw_same; assumption.
      - apply sw_bucket; assumption.
      - apply sw_retry; assumption.
      - apply sw_power; try assumption; congruence.
      - apply sw_wide; try assumption; congruence.
      - apply (sw_wide_retry n ds m i); assumption.
    Qed.
    Lemma sw_length n u v a c : sw n u v a c -> length a = length c.
    Proof. induction 1; cbn [length]; rewrite ?app_length, ?enc_length; cbn [length]; try lia; congruence. Qed.
    Lemma sw_left n u v a c : sw n u v a c -> U n a u [].
    Proof.
      pose proof be_2 as G.
      induction 1 as [|p u v H1 H2 H3|n o u v H1 H2 H3 H4|n d u v a c H1 H2 H3 _ IH|n ds es H1 H2 H3 H4 H5|n ds es m i j a c H1 H2 H3 H4 H5 H6 _ IH H7 H8|n ds m i p u v a c H1 H2 H3 H4 H5 H6 _ IH].
      - constructor.
      - apply (uniform_same _ _ _ _ _ _ [bmin + u]); [lia| |apply dr1_intro; assumption].
        destruct cst; [rewrite H3; reflexivity|]. destruct H3 as (d & D & ->). exists d. apply (dr1_intro d [bmin + u]), D.
      - assert (Sp : 0 < be / n) by lia. pose proof (Z.mul_div_le be n ltac:(lia)) as Md.
        assert (Q : (u * (be / n) + o) / (be / n) = u). { symmetry. apply Z.div_unique with (r := o); [left; lia|ring]. }
        rewrite <- Q at 2. apply uniform_bucket; [exact H1|apply dr1_intro; nia|rewrite Q; lia].
      - eapply uniform_retry; [exact H1|apply dr1_intro, H2|exact H3|exact IH].
      - apply uniform_power; [exact H1|rewrite <- (app_nil_r (enc ds)); apply dr_intro, H2|exact H5].
      - eapply uniform_wide; [exact H1|apply dr_intro, H2|exact H5|exact H6|exact IH|exact H7].
      - eapply uniform_wide_retry; [exact H1|apply dr_intro, H2|exact H3|exact H4| |exact H6|exact IH]. exact (U_app _ _ _ _ a H5).
    Qed.
    Lemma sw_total n s u s' : U n s u s' -> forall v, 0 <= v < n -> exists a c, s = a ++ s' /\ sw n u v a c.
    Proof.
      pose proof be_2 as G.
      induction 1 as [s|s s1 d s2 H1 H2 H3|n s d s1 H1 H2 H3|n s d s1 u s2 H1 H2 H3 _ IH|n s ds s1 H1 H2 H3|n s ds s1 i s2 m H1 H2 H3 H4 U1 IH H5|n s ds s1 i s2 m u s3 H1 H2 H3 H4 U1 IH H5 U2 IH2];
        intros v V.
      - assert (v = 0) by lia. subst v. exists [], []. split; [reflexivity|constructor].
      - apply dr1_elim in H3 as [D ->].
        assert (P : exists p, s = p ++ bmin + d :: s2 /\ (if cst then p = [] else exists d, 0 <= d < be /\ p = [bmin + d])).
        { destruct cst; [exists []; subst; auto|]. destruct H2 as [e H2]. apply dr1_elim in H2 as [De ->]. exists [bmin + e]. eauto. }
        destruct P as (p & -> & P). exists (p ++ [bmin + d]), (p ++ [bmin + v]). split; [rewrite <- app_assoc; reflexivity|]. apply sw_same; assumption.
      - apply dr1_elim in H2 as [D ->].
        assert (Sp : 0 < be / n) by (apply Z.div_str_pos; lia). pose proof (Z.div_mod d (be / n) ltac:(lia)) as Dm. pose proof (Z.mod_pos_bound d (be / n) Sp) as Mb.
        exists [bmin + d], [bmin + (v * (be / n) + d mod (be / n))]. split; [reflexivity|].
        replace [bmin + d] with [bmin + (d / (be / n) * (be / n) + d mod (be / n))] by (f_equal; lia).
        apply sw_bucket; [exact H1|exact Mb| |exact V]. split; [apply Z.div_pos; lia|exact H3].
      - apply dr1_elim in H2 as [D ->]. destruct (IH v V) as (a & c & -> & S). exists (bmin + d :: a), (bmin + d :: c). split; [reflexivity|]. apply sw_retry; assumption.
      - pose proof (draws_forall _ _ _ _ _ H2) as F. destruct (number_surj (length ds) v ltac:(lia)) as (es & L & F' & <-).
        exists (enc ds), (enc es). split; [apply dr_elim, H2|]. apply sw_power; assumption.
      - pose proof (draws_forall _ _ _ _ _ H2) as F. assert (Pm : 0 < m) by (rewrite H3; apply Z.pow_pos_nonneg; lia).
        destruct (number_surj (length ds) (v mod m)) as (es & L & F' & N); [rewrite <- H3; apply Z.mod_pos_bound, Pm|].
        pose proof (Z.div_mod v m ltac:(lia)) as Dm.
        destruct (IH (v / m)) as (a & c & -> & S). { split; [apply Z.div_pos; lia|]. pose proof (Z.div_le_mono v (n - 1) m Pm ltac:(lia)). lia. }
        exists (enc ds ++ a), (enc es ++ c). split; [rewrite (dr_elim _ _ _ H2), app_assoc; reflexivity|].
        replace v with (number es + m * (v / m)) by lia. apply sw_wide; try assumption. lia.
      - pose proof (draws_forall _ _ _ _ _ H2) as F. assert (Pm : 0 < m) by (rewrite H3; apply Z.pow_pos_nonneg; lia).
        destruct (IH 0) as (p & ? & -> & S1). { split; [lia|]. pose proof (Z.div_pos (n - 1) m ltac:(lia) Pm). lia. }
        destruct (IH2 v V) as (a & c & -> & S2). exists (enc ds ++ p ++ a), (enc ds ++ p ++ c).
        split; [rewrite (dr_elim _ _ _ H2), <- !app_assoc; reflexivity|].
        apply (sw_wide_retry n ds m i); try assumption. eapply sw_left, S1.
    Qed.

    Lemma sw_fun n u v a c : sw n u v a c -> forall u' a' c' r r', sw n u' v a' c' -> a ++ r = a' ++ r' -> a = a' /\ c = c'.
    Proof.
      pose proof be_2 as G.
      induction 1 as [|p u v H1 H2 H3|n o u v H1 H2 H3 H4|n d u v a c H1 H2 H3 S IH|n ds es H1 H2 H3 H4 H5|n ds es m i j a c H1 H2 H3 H4 H5 H6 S IH H7 H8|n ds m i p u v a c H1 H2 H3 H4 H5 H6 S IH];
        intros u' a' c' r r' K Q.
      - inversion K; subst; try lia. auto.
      - inversion K as [|p' u2 v2 K1 K2 K3 | | | | |]; subst; try lia.
        destruct cst.
        + subst p p'. cbn [app] in *. inversion Q. split; [congruence|reflexivity].
        + destruct H3 as (d & D & ->), K3 as (d' & D' & ->). cbn [app] in *. inversion Q. split; reflexivity.
      - inversion K as [|? ? ? ? ? ?|n' o' u2 v2 K1 K2 K3 K4|n' d' u2 v2 a2 c2 K1 K2 K3 K4| | |]; subst; try lia.
        + cbn [app] in Q. inversion Q as [[E1 E2]]. assert (u = u') by nia. subst u'. assert (o = o') by lia. subst. auto.
        + cbn [app] in Q. inversion Q as [[E1 E2]]. exfalso.
          assert ((u * (be / n) + o) / (be / n) = u) by (symmetry; apply Z.div_unique with (r := o); [left; lia|ring]).
          replace d' with (u * (be / n) + o) in K3 by lia. lia.
      - inversion K as [|? ? ? ? ? ?|n' o' u2 v2 K1 K2 K3 K4|n' d' u2 v2 a2 c2 K1 K2 K3 K4| | |]; subst; try lia.
        + cbn [app] in Q. inversion Q as [[E1 E2]]. exfalso.
          assert ((u' * (be / n) + o') / (be / n) = u') by (symmetry; apply Z.div_unique with (r := o'); [left; lia|ring]).
          replace d with (u' * (be / n) + o') in H3 by lia. lia.
        + cbn [app] in Q. inversion Q as [[E1 E2]]. destruct (IH _ _ _ _ _ K4 E2) as [-> ->]. split; f_equal; lia.
      - inversion K as [| | | |n' ds' es' K1 K2 K3 K4 K5 [K6 K6'] K7 K8 K9|n' ds' es' m' i' j' a2 c2 K1 K2 K3 K4 K5 K6 K7 K8 K9|n' ds' m' i' p' u2 v2 a2 c2 K1 K2 K3 K4 K5 K6 K7]; subst; try lia.
        + assert (L : Z.of_nat (length ds') = Z.of_nat (length ds)) by (apply (pow_between be _ _ (be ^ Z.of_nat (length ds))); nia).
          destruct (enc_inj ds ds' r r' ltac:(lia) Q) as [-> _]. split; [reflexivity|]. f_equal. apply number_inj; try assumption; [lia|congruence].
        + assert (L : Z.of_nat (length ds') = Z.of_nat (length ds)) by (apply (pow_between be _ _ (be ^ Z.of_nat (length ds))); nia). rewrite L in K6. lia.
        + assert (L : Z.of_nat (length ds') = Z.of_nat (length ds)) by (apply (pow_between be _ _ (be ^ Z.of_nat (length ds))); nia). rewrite L in K4. lia.
      - rewrite <- app_assoc in Q.
        inversion K as [| | | |n' ds' es' K1 K2 K3 K4 K5|n' ds' es' m' i' j' a2 c2 K1 K2 K3 K4 K5 K6 K7 K8 K9 Ku Kv|n' ds' m' i' p' u2 v2 a2 c2 K1 K2 K3 K4 K5 K6 K7]; subst; try lia.
        + assert (L : Z.of_nat (length ds') = Z.of_nat (length ds)) by (apply (pow_between be _ _ (be ^ Z.of_nat (length ds'))); nia). rewrite L in H6. lia.
        + assert (L : Z.of_nat (length ds') = Z.of_nat (length ds)) by (apply (pow_between be _ _ n); nia).
          rewrite <- app_assoc in Q. destruct (enc_inj ds ds' _ _ ltac:(lia) Q) as [<- Q'].
          pose proof (num_range es H3) as N1. pose proof (num_range es' K3) as N2. rewrite H4 in N1. rewrite K4 in N2.
          assert (j' = j) by nia. subst j'. assert (Ne : number es' = number es) by lia.
          rewrite (number_inj es' es ltac:(congruence) K3 H3 Ne).
          destruct (IH _ _ _ _ _ K7 Q') as [-> ->]. auto.
        + assert (L : Z.of_nat (length ds') = Z.of_nat (length ds)) by (apply (pow_between be _ _ n); nia).
          rewrite <- !app_assoc in Q. destruct (enc_inj ds ds' _ _ ltac:(lia) Q) as [<- Q'].
          pose proof (U_app _ _ _ _ r (sw_left _ _ _ _ _ S)) as U1. pose proof (U_app _ _ _ _ (a2 ++ r') K5) as U2. rewrite Q' in U1.
          destruct (uniform_det _ _ _ _ _ _ _ U1 _ _ U2) as [-> _]. lia.
      - rewrite <- !app_assoc in Q.
        inversion K as [| | | |n' ds' es' K1 K2 K3 K4 K5|n' ds' es' m' i' j' a2 c2 K1 K2 K3 K4 K5 K6 K7 K8 K9 Ku Kv|n' ds' m' i' p' u2 v2 a2 c2 K1 K2 K3 K4 K5 K6 K7]; subst; try lia.
        + assert (L : Z.of_nat (length ds') = Z.of_nat (length ds)) by (apply (pow_between be _ _ (be ^ Z.of_nat (length ds'))); nia). rewrite L in H4. lia.
        + assert (L : Z.of_nat (length ds') = Z.of_nat (length ds)) by (apply (pow_between be _ _ n); nia).
          rewrite <- !app_assoc in Q. destruct (enc_inj ds ds' _ _ ltac:(lia) Q) as [<- Q'].
          pose proof (U_app _ _ _ _ (a ++ r) H5) as U1. pose proof (U_app _ _ _ _ r' (sw_left _ _ _ _ _ K7)) as U2. rewrite Q' in U1.
          destruct (uniform_det _ _ _ _ _ _ _ U1 _ _ U2) as [-> _]. lia.
        + assert (L : Z.of_nat (length ds') = Z.of_nat (length ds)) by (apply (pow_between be _ _ n); nia).
          rewrite <- !app_assoc in Q. destruct (enc_inj ds ds' _ _ ltac:(lia) Q) as [<- Q'].
          pose proof (U_app _ _ _ _ (a ++ r) H5) as U1. pose proof (U_app _ _ _ _ (a2 ++ r') K5) as U2. rewrite Q' in U1.
          destruct (uniform_det _ _ _ _ _ _ _ U1 _ _ U2) as [-> Q2]. cbn [app] in Q2. rewrite Q2 in Q'. apply app_inv_tail in Q'. subst p'.
          destruct (IH _ _ _ _ _ K7 Q2) as [-> ->]. auto.
    Qed.
    Lemma U_forall n s v s' : U n s v s' -> Forall (fun e => bmin <= e <= bmax) s' -> Forall (fun e => bmin <= e <= bmax) s.
    Proof.
      assert (A : forall s d s', dr1 s d s' -> Forall (fun e => bmin <= e <= bmax) s' -> Forall (fun e => bmin <= e <= bmax) s).
      { intros x d x' H F. apply dr1_elim in H as [D ->]. constructor; [unfold beta in D; lia|exact F]. }
      assert (C : forall s ds s', dr s ds s' -> Forall (fun e => bmin <= e <= bmax) s' -> Forall (fun e => bmin <= e <= bmax) s).
      { induction 1; intros F; [exact F|eauto]. }
      induction 1 as [s|s s1 d s2 H1 H2 H3|n s d s1 H1 H2 H3|n s d s1 v s2 H1 H2 H3 _ IH|n s ds s1 H1 H2 H3|n s ds s1 i s2 m H1 H2 H3 H4 U1 IH H5|n s ds s1 i s2 m v s3 H1 H2 H3 H4 U1 IH H5 U2 IH2];
        intros F; try solve [eauto].
      destruct cst; [subst; eauto|]. destruct H2 as [e H2]. eauto.
    Qed.

    Lemma pairs_lemma n u v : 0 <= u < n -> 0 <= v < n ->
      pairs_up (sw n u v) (fun a => U n a u []) (fun a => U n a v []).
    Proof.
      intros Hu Hv. split; [|split; [|split]].
      - intros a A. destruct (sw_total _ _ _ _ A v Hv) as (a' & c & E1 & S). rewrite app_nil_r in E1. subst a'. exists c. split; [eapply sw_left, sw_sym, S|exact S].
      - intros c A. destruct (sw_total _ _ _ _ A u Hu) as (c' & a & E1 & S). rewrite app_nil_r in E1. subst c'. exists a. split; [eapply sw_left, sw_sym, S|apply sw_sym, S].
      - intros a c c' S S'. exact (proj2 (sw_fun _ _ _ _ _ S _ _ _ [] [] S' eq_refl)).
      - intros a a' c S S'. exact (proj2 (sw_fun _ _ _ _ _ (sw_sym _ _ _ _ _ S) _ _ _ [] [] (sw_sym _ _ _ _ _ S') eq_refl)).
    Qed.
  End Tape.
End Gen.

Lemma tape_ok b bmin bmax : is_val b bmin -> is_val b bmax -> bmin < bmax ->
  engine_ok (list Z) tape bmin bmax b (Forall (fun e => bmin <= e <= bmax)).
Proof.
  intros A C L. split; [exact A|]. split; [exact C|]. split; [exact L|]. intros s F.
  destruct F as [|e s E F]; [left; reflexivity|]. right. exists e, s. auto.
Qed.

Lemma uniform_int_unbiased_lemma b bmin bmax cst t lo hi x y : is_val b bmin -> is_val b bmax -> bmin < bmax ->
  uni_good b bmin bmax t lo hi -> lo <= x <= hi -> lo <= y <= hi ->
  exists P, pairs_up P
    (fun a => Forall (fun e => bmin <= e <= bmax) a /\ exists r k, uniform_int (list Z) tape b bmin bmax cst r k t lo hi a = Ok (x, []))
    (fun a => Forall (fun e => bmin <= e <= bmax) a /\ exists r k, uniform_int (list Z) tape b bmin bmax cst r k t lo hi a = Ok (y, []))
  /\ forall a c, P a c -> length a = length c.
Proof.
  intros A C L Gd X Y. pose proof (tape_ok b bmin bmax A C L) as E.
  exists (sw bmin bmax cst (hi - lo + 1) (x - lo) (y - lo)). split; [|apply sw_length].
  destruct (pairs_lemma bmin bmax L cst (hi - lo + 1) (x - lo) (y - lo) ltac:(lia) ltac:(lia)) as (P1 & P2 & P3 & P4).
  assert (W : forall a z, (Forall (fun e => bmin <= e <= bmax) a /\ exists r k, uniform_int (list Z) tape b bmin bmax cst r k t lo hi a = Ok (z, [])) <->
      uniform (list Z) tape bmin bmax cst (hi - lo + 1) a (z - lo) []).
  { intros a z. split.
    - intros [F H]. apply (uniform_int_lemma _ _ _ _ _ _ E cst t lo hi a z [] Gd F). exact H.
    - intros H. pose proof (U_forall _ _ _ _ _ _ _ H (Forall_nil _)) as F. split; [exact F|].
      apply (uniform_int_lemma _ _ _ _ _ _ E cst t lo hi a z [] Gd F). exact H. }
  split; [|split; [|split; [exact P3|exact P4]]].
  - intros a Ha. apply W in Ha. destruct (P1 a Ha) as (c & Hc & S). exists c. split; [apply W, Hc|exact S].
  - intros c Hc. apply W in Hc. destruct (P2 c Hc) as (a & Ha & S). exists a. split; [apply W, Ha|exact S].
Qed.

Lemma uniform_int_paths_lemma St step b bmin bmax I t lo hi s x s' : engine_ok St step bmin bmax b I ->
  uni_good b bmin bmax t lo hi -> I s -> (forall j, 0 <= j -> (hi - lo) / beta bmin bmax ^ j <> bmax - bmin) ->
  (exists r k, uniform_int St step b bmin bmax true r k t lo hi s = Ok (x, s')) <->
  (exists r k, uniform_int St step b bmin bmax false r k t lo hi s = Ok (x, s')).
Proof.
  intros E Gd Is C. rewrite (uniform_int_lemma _ _ _ _ _ _ E true t lo hi s x s' Gd Is).
  rewrite (uniform_int_lemma _ _ _ _ _ _ E false t lo hi s x s' Gd Is).
  pose proof E as (_ & _ & L & _).
  assert (C' : forall j, 0 <= j -> (hi - lo + 1 - 1) / beta bmin bmax ^ j <> beta bmin bmax - 1).
  { intros j J. replace (hi - lo + 1 - 1) with (hi - lo) by lia. replace (beta bmin bmax - 1) with (bmax - bmin) by (unfold beta; lia). apply C, J. }
  split; intros H; eapply uniform_paths; eassumption.
Qed.

(** ** uniform_smallint *)

Section Small.
  Variable St : Type.
  Variable step : St -> res (Z * St).
  Variable b : ity.
  Variables bmin bmax : Z.
  Variable I : St -> Prop.
  Hypothesis E : engine_ok St step bmin bmax b I.

  Lemma base_range_ok t : subtract t (conv t bmax) (conv t bmin) = Ok ((bmax - bmin) mod 2 ^ wid t).
  Proof. rewrite sub_ok by apply conv_val. f_equal. rewrite Zminus_mod, !conv_mod, <- Zminus_mod. reflexivity. Qed.

  Lemma smallint_lemma cst t lo hi s d s' : is_val t lo -> is_val t hi -> lo <= hi ->
    ((bmax - bmin) mod 2 ^ wid t <= hi - lo -> bmax - bmin <= hi - lo) ->
    (cst = true \/ sgn b = false \/ hi - lo <> tmax b \/ bmax - bmin <= hi - lo) ->
    draws1 St step bmin bmax s d s' ->
    smallint St step b bmin bmax cst t lo hi s = Ok (small bmin bmax lo hi d, s') /\ lo <= small bmin bmax lo hi d <= hi.
  Proof.
    intros Vlo Vhi Le C1 C2 D. pose proof E as (Vm & VM & Lb & _). pose proof D as [Dr _]. unfold beta in Dr.
    pose proof (sub_small b bmax bmin VM Vm ltac:(lia)) as [_ Rb]. destruct (sub_small t hi lo Vhi Vlo Le) as [Hr Rr].
    pose proof (wid_ge t) as Wt. pose proof (wid_ge b) as Wb. pose proof (pow_pos (wid t) ltac:(lia)) as Pt. pose proof (pow_pos (wid b) ltac:(lia)) as Pb.
    unfold smallint. rewrite Hr, base_range_ok. cbn [bind]. rewrite (draw_det _ _ _ _ _ _ E _ _ _ D). cbn [bind fst snd].
    pose proof (Z.mod_pos_bound (bmax - bmin) (2 ^ wid t) Pt) as Mb. pose proof (Z.mod_le (bmax - bmin) (2 ^ wid t) ltac:(lia) Pt) as Ml.
    rewrite (conv_small (uns b) ((bmax - bmin) mod 2 ^ wid t)) by (try reflexivity; rewrite ?wid_uns; lia).
    assert (T : (hi - lo <? bmax - bmin) = negb ((bmax - bmin) mod 2 ^ wid t <=? hi - lo)).
    { apply eq_iff_eq_true. rewrite negb_true_iff, Z.ltb_lt, Z.leb_gt. lia. }
    unfold small. rewrite T. destruct (Z.leb_spec ((bmax - bmin) mod 2 ^ wid t) (hi - lo)) as [A|A]; cbn [negb].
    - specialize (C1 A). rewrite (conv_small (uns t) d) by (try reflexivity; rewrite ?wid_uns; lia).
      rewrite add_ok; [cbn [bind]; split; [do 2 f_equal; lia|lia]|reflexivity|rewrite wid_uns; lia|exact Vlo| |left; rewrite wid_uns; lia].
      unfold is_val in *. destruct (sgn t); lia.
    - assert (Hn : (if cst then arith (uns b) (conv (uns b) (hi - lo) + 1) else n <- arith b (conv b (hi - lo) + 1) ;; Ok (conv (uns b) n)) = Ok (hi - lo + 1)).
      { rewrite (conv_small (uns b) (hi - lo)) by (try reflexivity; rewrite ?wid_uns; lia).
        destruct cst; [apply arith_u; [reflexivity|rewrite wid_uns; lia]|].
        destruct (sgn b) eqn:S.
        - destruct C2 as [C2|[C2|[C2|C2]]]; [discriminate|discriminate| |lia].
          pose proof (conv_val b (hi - lo)) as Vc. pose proof (conv_mod b (hi - lo)) as Mc. pose proof (wid_half b) as Wh. pose proof (half_pos b) as Hp.
          unfold tmax in C2. rewrite S in C2. assert (Vc' := Vc). unfold is_val in Vc'. rewrite S in Vc'.
          rewrite (Z.mod_small (hi - lo)) in Mc by lia.
          assert (Cv : conv b (hi - lo) = hi - lo \/ conv b (hi - lo) = hi - lo - 2 ^ wid b).
          { pose proof (Z.div_mod (conv b (hi - lo)) (2 ^ wid b) ltac:(lia)) as Dm. rewrite Mc in Dm.
            assert (conv b (hi - lo) / 2 ^ wid b = 0 \/ conv b (hi - lo) / 2 ^ wid b = -1) as [Q|Q] by nia; rewrite Q in Dm; lia. }
          rewrite arith_s by (unfold is_val; rewrite S; lia). cbn [bind]. f_equal. rewrite conv_u by reflexivity. rewrite wid_uns.
          symmetry. destruct Cv as [Cv|Cv]; rewrite Cv; [symmetry; apply Z.mod_small; lia|].
          apply Z.mod_unique with (q := -1); [left; lia|lia].
        - rewrite conv_small by (try assumption; lia). rewrite arith_u by (try assumption; lia). cbn [bind]. f_equal.
          apply conv_small; [reflexivity|rewrite wid_uns; lia]. }
      rewrite Hn. cbn [bind]. rewrite crem_u by (try reflexivity; lia). cbn [bind].
      pose proof (Z.mod_pos_bound d (hi - lo + 1) ltac:(lia)) as M.
      rewrite (conv_small (uns t) (d mod (hi - lo + 1))) by (try reflexivity; rewrite ?wid_uns; lia).
      rewrite add_ok; [cbn [bind]; split; [do 2 f_equal; lia|lia]|reflexivity|rewrite wid_uns; lia|exact Vlo| |left; rewrite wid_uns; lia].
      unfold is_val in *. destruct (sgn t); lia.
  Qed.
End Small.

(** how many values of the engine give [x]: the [d] with this result are x - lo + n j for j < c *)
Lemma small_count_lemma bmin bmax lo hi x : bmin < bmax -> lo <= hi -> hi - lo < bmax - bmin -> lo <= x <= hi ->
  exists c, beta bmin bmax / (hi - lo + 1) <= c <= beta bmin bmax / (hi - lo + 1) + 1 /\
  forall d, 0 <= d < beta bmin bmax -> (small bmin bmax lo hi d = x <-> exists j, 0 <= j < c /\ d = x - lo + (hi - lo + 1) * j).
Proof.
  intros B L R X. unfold small. replace (hi - lo <? bmax - bmin) with true by (symmetry; apply Z.ltb_lt; lia).
  set (n := hi - lo + 1). set (N := beta bmin bmax). assert (Nn : n < N + 1) by (unfold n, N, beta; lia). assert (Pn : 0 < n) by (unfold n; lia).
  pose proof (Z.div_mod N n ltac:(lia)) as Dm. pose proof (Z.mod_pos_bound N n Pn) as Mb.
  exists (if x - lo <? N mod n then N / n + 1 else N / n). split; [destruct (x - lo <? N mod n); lia|].
  intros d D. pose proof (Z.div_mod d n ltac:(lia)) as Dd. pose proof (Z.mod_pos_bound d n Pn) as Md. split.
  - intros H. exists (d / n). split; [|lia]. split; [apply Z.div_pos; lia|].
    destruct (Z.ltb_spec (x - lo) (N mod n)); nia.
  - intros (j & J & Hd). replace (d mod n) with (x - lo); [lia|]. apply Z.mod_unique with (q := j); [left; unfold n; lia|lia].
Qed.

(** taus88 is such an engine *)
Lemma taus88_engine il md : (il <= 2)%nat ->
  engine_ok (Z * Z * Z) (taus88_step il md) 0 (2 ^ 32 - 1) u32
    (fun e => let '(a, b, c) := e in w32b a /\ w32b b /\ w32b c).
Proof.
  intros Hi. split; [vm_compute; split; congruence|]. split; [vm_compute; split; congruence|]. split; [lia|].
  intros [[a b] c] (A & B & C). right. destruct (taus88_lemma il md a b c Hi A B C) as [H K].
  exists (lecuyer_out (lecuyer (a, b, c))), (lecuyer (a, b, c)). split; [exact H|]. split; [|exact K].
  destruct (lecuyer (a, b, c)) as [[x y] z]. destruct K as (X & Y & Z1). unfold lecuyer_out, w32b in *.
  pose proof (lxor_lt _ _ 32 ltac:(lia) (lxor_lt x y 32 ltac:(lia) X Y) Z1). lia.
Qed.
