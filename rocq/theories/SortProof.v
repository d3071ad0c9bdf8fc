(** Proofs about sorting few elements and about inserting. *)
From Coq Require Import List Arith NArith Bool Lia Permutation ZArith.
From Verif Require Import Base BaseProof SearchSpec SearchProof OrderSpec OrderModel OrderProof OrderProof4 ListFacts
  MutModel MutSpec MutProof MutProof3 SortModel ValFacts.
Import ListNotations.

Section P.
  Context {A : Type}.
  Variable comp : A -> A -> bool.
  Hypothesis W : strict_weak_order comp.
  Variable d0 : A.
  Implicit Types (m : list A) (first last i j k x y z : nat).
  Notation v := (v d0).

  (** ** Tools *)
  Lemma wp_cmp m a b (Q : bool -> Prop) : a < length m -> b < length m -> Q (comp (v m a) (v m b)) ->
    wp (cmp comp m a b) Q.
  Proof.
    intros Ha Hb H. unfold cmp. apply wp_bind, (wp_rd_v d0); [exact Ha|]. apply wp_bind, (wp_rd_v d0); [exact Hb|]. exact H.
  Qed.

  (** A rearrangement of [first, last) *)
  Definition rr first last m m' : Prop := length m' = length m /\ rearranged m first last m'.

  Lemma rr_refl first last m : valid m first last -> rr first last m m.
  Proof. intros V. split; [reflexivity|now apply rearranged_refl]. Qed.

  Lemma rr_trans first last m1 m2 m3 : valid m1 first last -> rr first last m1 m2 -> rr first last m2 m3 -> rr first last m1 m3.
  Proof. intros V [L1 R1] [L2 R2]. split; [lia|]. eapply rearranged_trans; eauto. Qed.

  Lemma rr_valid first last m m' a b : rr first last m m' -> valid m a b -> valid m' a b.
  Proof. intros [L _] [V1 V2]. split; lia. Qed.

  Lemma rr_wider first last a b m m' : valid m a b -> a <= first -> first <= last -> last <= b -> rr first last m m' -> rr a b m m'.
  Proof. intros V H1 H2 H3 [L R]. split; [exact L|]. eapply (rearranged_wider _ first last); eauto. Qed.

  Lemma rr_of first last m m' : valid m first last -> rearranged m first last m' -> rr first last m m'.
  Proof. intros V R. split; [now apply (rearranged_length m first last)|exact R]. Qed.

  Lemma rr_out first last m m' n : valid m first last -> rr first last m m' -> n < first \/ last <= n -> v m' n = v m n.
  Proof. intros V [_ R] H. now apply (v_out d0 m m' first last). Qed.

  Lemma wp_swp m i j (Q : list A -> Prop) : i < length m -> j < length m ->
    (forall m', length m' = length m -> v m' i = v m j -> v m' j = v m i ->
       (forall n, n <> i -> n <> j -> v m' n = v m n) ->
       (forall first last, last <= length m -> first <= i < last -> first <= j < last -> rr first last m m') ->
       Q m') ->
    wp (iter_swap m i j) Q.
  Proof.
    intros Hi Hj H. apply (wp_swap_v d0); auto. intros m' L E R. apply H; auto.
    - rewrite E. now rewrite Nat.eqb_refl.
    - rewrite E. rewrite Nat.eqb_refl. now destruct (Nat.eqb_spec j i) as [->|].
    - intros n N1 N2. rewrite E. destruct (Nat.eqb_spec n i), (Nat.eqb_spec n j); congruence.
    - intros first last HL H1 H2. split; [exact L|]. now apply R.
  Qed.

  (** not greater *)
  Definition le a b : Prop := comp b a = false.

  Lemma le_refl a : le a a. Proof. apply (swo_irr comp W). Qed.
  Lemma le_trans a b c : le a b -> le b c -> le a c.
  Proof. unfold le. intros H1 H2. now apply (swo_neg comp W _ b). Qed.
  Lemma lt_le a b : comp a b = true -> le a b.
  Proof. unfold le. intros H. now apply (swo_asym comp W). Qed.

  Definition sorted_in m first last : Prop := forall i j, first <= i -> i < j -> j < last -> le (v m i) (v m j).

  Lemma sorted_in_range m first last : valid m first last -> (sorted_range comp m first last <-> sorted_in m first last).
  Proof. intros V. apply (sorted_v2 d0 comp W). exact V. Qed.

  Lemma sorted_in_step m first last : (forall i, first <= i -> S i < last -> le (v m i) (v m (S i))) -> sorted_in m first last.
  Proof.
    intros H i j Hi Hij Hj. induction j as [|j IH]; [lia|].
    destruct (Nat.eq_dec i j) as [->|]; [apply H; lia|].
    apply (le_trans _ (v m j)); [apply IH; lia|apply H; lia].
  Qed.

  (** ** sort3, sort4, sort5 *)
  Definition in3 first last x y z := first <= x < last /\ first <= y < last /\ first <= z < last /\ x <> y /\ y <> z /\ x <> z.

  Lemma sort3_ok m first last x y z : valid m first last -> in3 first last x y z ->
    wp (sort3 comp m x y z) (fun '(m', _) => rr first last m m' /\
      le (v m' x) (v m' y) /\ le (v m' y) (v m' z) /\
      (forall n, n <> x -> n <> y -> n <> z -> v m' n = v m n)).
  Proof.
    intros [V1 V2] (Hx & Hy & Hz & N1 & N2 & N3). unfold sort3.
    assert (V : valid m first last) by (split; lia).
    apply wp_bind, wp_cmp; [lia|lia|]. destruct (comp (v m y) (v m x)) eqn:C1; cbn [negb].
    - apply wp_bind, wp_cmp; [lia|lia|]. destruct (comp (v m z) (v m y)) eqn:C2.
      + apply wp_bind, wp_swp; [lia|lia|]. intros m1 L1 E1 E2 E3 R. cbn [wp].
        split; [apply R; lia|]. rewrite E1, E2, (E3 y) by lia. repeat split; auto using lt_le.
      + apply wp_bind, wp_swp; [lia|lia|]. intros m1 L1 E1 E2 E3 R.
        assert (R1 : rr first last m m1) by (apply R; lia).
        apply wp_bind, wp_cmp; [lia|lia|]. rewrite E2, (E3 z) by lia. destruct (comp (v m z) (v m x)) eqn:C3.
        * apply wp_bind, wp_swp; [lia|lia|]. intros m2 L2 F1 F2 F3 R2. cbn [wp].
          split; [eapply rr_trans; [exact V|exact R1|apply R2; lia]|].
          rewrite F1, F2, (F3 x), E1, E2, (E3 z) by lia. repeat split; auto using lt_le.
          intros n. intros. rewrite F3, E3 by lia. reflexivity.
        * cbn [wp]. split; [exact R1|]. rewrite E1, E2, (E3 z) by lia. repeat split; auto using lt_le.
    - apply wp_bind, wp_cmp; [lia|lia|]. destruct (comp (v m z) (v m y)) eqn:C2; cbn [negb].
      + apply wp_bind, wp_swp; [lia|lia|]. intros m1 L1 E1 E2 E3 R.
        assert (R1 : rr first last m m1) by (apply R; lia).
        apply wp_bind, wp_cmp; [lia|lia|]. rewrite E1, (E3 x) by lia. destruct (comp (v m z) (v m x)) eqn:C3.
        * apply wp_bind, wp_swp; [lia|lia|]. intros m2 L2 F1 F2 F3 R2. cbn [wp].
          split; [eapply rr_trans; [exact V|exact R1|apply R2; lia]|].
          rewrite F1, F2, (F3 z), E1, E2, (E3 x) by lia. repeat split; auto using lt_le.
          intros n. intros. rewrite F3, E3 by lia. reflexivity.
        * cbn [wp]. split; [exact R1|]. rewrite E1, E2, (E3 x) by lia. repeat split; auto using lt_le.
      + cbn [wp]. split; [now apply rr_refl|]. repeat split; auto.
  Qed.

  Lemma sort4_ok m first last x y z t : valid m first last -> in3 first last x y z ->
    first <= t < last -> t <> x -> t <> y -> t <> z ->
    wp (sort4 comp m x y z t) (fun '(m', _) => rr first last m m' /\
      le (v m' x) (v m' y) /\ le (v m' y) (v m' z) /\ le (v m' z) (v m' t) /\
      (forall n, n <> x -> n <> y -> n <> z -> n <> t -> v m' n = v m n)).
  Proof.
    intros V I Ht T1 T2 T3. pose proof V as [V1 V2]. pose proof I as (Hx & Hy & Hz & N1 & N2 & N3). unfold sort4.
    apply wp_bind. eapply wp_mono; [apply (sort3_ok m first last x y z V I)|]. intros [m0 r] (R0 & O1 & O2 & E0).
    pose proof (rr_valid _ _ _ _ first last R0 V) as [_ V0].
    apply wp_bind, wp_cmp; [lia|lia|]. destruct (comp (v m0 t) (v m0 z)) eqn:C1.
    2: { cbn [wp]. repeat split; auto; apply R0. }
    apply wp_bind, wp_swp; [lia|lia|]. intros m1 L1 E1 E2 E3 R1'.
    assert (R1 : rr first last m m1) by (eapply rr_trans; [exact V|exact R0|apply R1'; lia]). clear R1'.
    assert (OO1 : forall n, n <> x -> n <> y -> n <> z -> n <> t -> v m1 n = v m n) by (intros; rewrite E3, E0 by lia; reflexivity).
    pose proof (E3 x ltac:(lia) ltac:(lia)) as E3x. pose proof (E3 y ltac:(lia) ltac:(lia)) as E3y.
    apply wp_bind, wp_cmp; [lia|lia|]. rewrite E1, E3y. destruct (comp (v m0 t) (v m0 y)) eqn:C2.
    2: { cbn [wp]. split; [exact R1|]. rewrite E1, E2, E3x, E3y. repeat split; auto using lt_le. }
    apply wp_bind, wp_swp; [lia|lia|]. intros m2 L2 F1 F2 F3 R2'.
    assert (R2 : rr first last m m2) by (eapply rr_trans; [exact V|exact R1|apply R2'; lia]). clear R2'.
    assert (OO2 : forall n, n <> x -> n <> y -> n <> z -> n <> t -> v m2 n = v m n) by (intros; rewrite F3, OO1 by lia; reflexivity).
    pose proof (F3 x ltac:(lia) ltac:(lia)) as F3x. pose proof (F3 t ltac:(lia) ltac:(lia)) as F3t.
    rewrite E1 in F1. rewrite E3y in F2. rewrite E3x in F3x. rewrite E2 in F3t.
    apply wp_bind, wp_cmp; [lia|lia|]. rewrite F1, F3x. destruct (comp (v m0 t) (v m0 x)) eqn:C3.
    2: { cbn [wp]. split; [exact R2|]. rewrite F1, F2, F3x, F3t. repeat split; auto using lt_le. }
    apply wp_bind, wp_swp; [lia|lia|]. intros m3 L3 G1 G2 G3 R3'.
    assert (R3 : rr first last m m3) by (eapply rr_trans; [exact V|exact R2|apply R3'; lia]). clear R3'.
    cbn [wp]. split; [exact R3|]. rewrite G1, G2, (G3 z), (G3 t), F1, F2, F3x, F3t by lia. repeat split; auto using lt_le.
    intros. rewrite G3, OO2 by lia. reflexivity.
  Qed.

  Lemma sort5_ok m first last x y z t u : valid m first last -> in3 first last x y z ->
    first <= t < last -> t <> x -> t <> y -> t <> z ->
    first <= u < last -> u <> x -> u <> y -> u <> z -> u <> t ->
    wp (sort5 comp m x y z t u) (fun '(m', _) => rr first last m m' /\
      le (v m' x) (v m' y) /\ le (v m' y) (v m' z) /\ le (v m' z) (v m' t) /\ le (v m' t) (v m' u)).
  Proof.
    intros V I Ht T1 T2 T3 Hu U1 U2 U3 U4. pose proof V as [V1 V2]. pose proof I as (Hx & Hy & Hz & N1 & N2 & N3). unfold sort5.
    apply wp_bind. eapply wp_mono; [apply (sort4_ok m first last x y z t V I Ht T1 T2 T3)|]. intros [m0 r] (R0 & O1 & O2 & O3 & E0).
    pose proof (rr_valid _ _ _ _ first last R0 V) as [_ V0].
    apply wp_bind, wp_cmp; [lia|lia|]. destruct (comp (v m0 u) (v m0 t)) eqn:C1.
    2: { cbn [wp]. repeat split; auto; apply R0. }
    apply wp_bind, wp_swp; [lia|lia|]. intros m1 L1 E1 E2 E3 R1'.
    assert (R1 : rr first last m m1) by (eapply rr_trans; [exact V|exact R0|apply R1'; lia]). clear R1'.
    pose proof (E3 x ltac:(lia) ltac:(lia)) as E3x. pose proof (E3 y ltac:(lia) ltac:(lia)) as E3y.
    pose proof (E3 z ltac:(lia) ltac:(lia)) as E3z.
    apply wp_bind, wp_cmp; [lia|lia|]. rewrite E1, E3z. destruct (comp (v m0 u) (v m0 z)) eqn:C2.
    2: { cbn [wp]. split; [exact R1|]. rewrite E1, E2, E3x, E3y, E3z. repeat split; auto using lt_le. }
    apply wp_bind, wp_swp; [lia|lia|]. intros m2 L2 F1 F2 F3 R2'.
    assert (R2 : rr first last m m2) by (eapply rr_trans; [exact V|exact R1|apply R2'; lia]). clear R2'.
    pose proof (F3 x ltac:(lia) ltac:(lia)) as F3x. pose proof (F3 y ltac:(lia) ltac:(lia)) as F3y.
    pose proof (F3 u ltac:(lia) ltac:(lia)) as F3u.
    rewrite E1 in F1. rewrite E3z in F2. rewrite E3x in F3x. rewrite E3y in F3y. rewrite E2 in F3u.
    apply wp_bind, wp_cmp; [lia|lia|]. rewrite F1, F3y. destruct (comp (v m0 u) (v m0 y)) eqn:C3.
    2: { cbn [wp]. split; [exact R2|]. rewrite F1, F2, F3x, F3y, F3u. repeat split; auto using lt_le. }
    apply wp_bind, wp_swp; [lia|lia|]. intros m3 L3 G1 G2 G3 R3'.
    assert (R3 : rr first last m m3) by (eapply rr_trans; [exact V|exact R2|apply R3'; lia]). clear R3'.
    pose proof (G3 x ltac:(lia) ltac:(lia)) as G3x. pose proof (G3 t ltac:(lia) ltac:(lia)) as G3t.
    pose proof (G3 u ltac:(lia) ltac:(lia)) as G3u.
    rewrite F1 in G1. rewrite F3y in G2. rewrite F3x in G3x. rewrite F2 in G3t. rewrite F3u in G3u.
    apply wp_bind, wp_cmp; [lia|lia|]. rewrite G1, G3x. destruct (comp (v m0 u) (v m0 x)) eqn:C4.
    2: { cbn [wp]. split; [exact R3|]. rewrite G1, G2, G3x, G3t, G3u. repeat split; auto using lt_le. }
    apply wp_bind, wp_swp; [lia|lia|]. intros m4 L4 H1 H2 H3 R4'.
    assert (R4 : rr first last m m4) by (eapply rr_trans; [exact V|exact R3|apply R4'; lia]). clear R4'.
    cbn [wp]. split; [exact R4|]. rewrite H1, H2, (H3 z), (H3 t), (H3 u), G1, G2, G3x, G3t, G3u by lia.
    repeat split; auto using lt_le.
  Qed.

  Lemma sort_few_ok m first last : valid m first last ->
    wp (sort_few comp m first last) (fun o =>
      match o with Some m' => rr first last m m' /\ sorted_in m' first last | None => 5 < last - first end).
  Proof.
    intros V. pose proof V as [V1 V2]. unfold sort_few. destruct (last - first) as [|[|[|[|[|[|n]]]]]] eqn:EL.
    - cbn [wp]. split; [now apply rr_refl|]. intros i j. lia.
    - cbn [wp]. split; [now apply rr_refl|]. intros i j. lia.
    - apply wp_bind, wp_dec; [lia|]. apply wp_bind, wp_cmp; [lia|lia|]. destruct (comp _ _) eqn:C.
      + apply wp_bind, wp_swp; [lia|lia|]. intros m1 L1 E1 E2 E3 R. cbn [wp]. split; [apply R; lia|].
        intros i j Hi Hij Hj. assert (i = first) by lia. assert (j = last - 1) by lia. subst i j. rewrite E1, E2. now apply lt_le.
      + cbn [wp]. split; [now apply rr_refl|]. intros i j Hi Hij Hj. assert (i = first) by lia. assert (j = last - 1) by lia. now subst i j.
    - apply wp_bind, wp_dec; [lia|]. apply wp_bind.
      eapply wp_mono; [apply (sort3_ok m first last); [exact V|repeat split; lia]|]. intros [m' n] (R & O1 & O2 & _). cbn [wp fst].
      split; [exact R|]. apply sorted_in_step. intros i Hi Hj.
      assert (D : i = first \/ i = first + 1) by lia. destruct D as [-> | ->].
      + now replace (S first) with (first + 1) by lia.
      + now replace (S (first + 1)) with (last - 1) by lia.
    - apply wp_bind, wp_dec; [lia|]. apply wp_bind.
      eapply wp_mono; [apply (sort4_ok m first last); [exact V|repeat split; lia|lia..]|]. intros [m' n] (R & O1 & O2 & O3 & _). cbn [wp fst].
      split; [exact R|]. apply sorted_in_step. intros i Hi Hj.
      assert (D : i = first \/ i = first + 1 \/ i = first + 2) by lia. destruct D as [-> | [-> | ->]].
      + now replace (S first) with (first + 1) by lia.
      + now replace (S (first + 1)) with (first + 2) by lia.
      + now replace (S (first + 2)) with (last - 1) by lia.
    - apply wp_bind, wp_dec; [lia|]. apply wp_bind.
      eapply wp_mono; [apply (sort5_ok m first last); [exact V|repeat split; lia|lia..]|]. intros [m' n] (R & O1 & O2 & O3 & O4). cbn [wp fst].
      split; [exact R|]. apply sorted_in_step. intros i Hi Hj.
      assert (D : i = first \/ i = first + 1 \/ i = first + 2 \/ i = first + 3) by lia. destruct D as [-> | [-> | [-> | ->]]].
      + now replace (S first) with (first + 1) by lia.
      + now replace (S (first + 1)) with (first + 2) by lia.
      + now replace (S (first + 2)) with (first + 3) by lia.
      + now replace (S (first + 3)) with (last - 1) by lia.
    - cbn [wp]. lia.
  Qed.

  (** ** Inserting *)
  (** The memory after moving [j, i) up by one and storing [t] at [j] *)
  Definition inserted m j i m' : Prop := length m' = length m /\
    (forall p, p < j \/ i < p -> v m' p = v m p) /\ v m' j = v m i /\
    (forall p, j < p <= i -> v m' p = v m (p - 1)).

  Lemma inserted_rr m j i m' : i < length m -> j <= i -> inserted m j i m' -> rr j (S i) m m'.
  Proof.
    intros Hi Hj (L & E1 & E2 & E3). split; [exact L|]. apply rearranged_iff; [split; lia|]. split; [exact L|].
    assert (N : forall p, p < length m -> nth_error m' p =
              if (p <? j) || (i <? p) then nth_error m p else if p =? j then nth_error m i else nth_error m (p - 1)).
    { intros p Hp. rewrite (nth_error_v d0) by lia.
      destruct (Nat.ltb_spec p j); cbn [orb]; [|destruct (Nat.ltb_spec i p)]; cbn [orb].
      - rewrite E1 by lia. symmetry. apply nth_error_v. lia.
      - rewrite E1 by lia. symmetry. apply nth_error_v. lia.
      - destruct (Nat.eqb_spec p j) as [->|]; [rewrite E2|rewrite E3 by lia]; symmetry; apply nth_error_v; lia. }
    split.
    - intros p Hp. destruct (Nat.lt_ge_cases p (length m)) as [C|C].
      + rewrite N by exact C. destruct (Nat.ltb_spec p j); cbn [orb]; [reflexivity|]. destruct (Nat.ltb_spec i p); [reflexivity|lia].
      + rewrite !nth_error_end by lia. reflexivity.
    - rewrite (slice_app m j i (S i)) by lia.
      replace (slice m' j (S i)) with (slice m i (S i) ++ slice m j i); [apply Permutation_app_comm|].
      apply list_ext. intros q.
      destruct (Nat.lt_ge_cases q (S i - j)) as [C|C].
      2: { rewrite !nth_error_end; rewrite ?app_length, ?slice_length by lia; auto; lia. }
      destruct (Nat.eq_dec q 0) as [->|Nq].
      + rewrite nth_error_app1 by (rewrite slice_length; lia). rewrite !nth_error_slice by lia. rewrite !Nat.add_0_r.
        rewrite N by lia. destruct (Nat.ltb_spec j j); [lia|]. destruct (Nat.ltb_spec i j); [lia|]. cbn [orb]. now rewrite Nat.eqb_refl.
      + rewrite nth_error_app2 by (rewrite slice_length; lia). rewrite slice_length by lia. rewrite !nth_error_slice by lia.
        rewrite N by lia. destruct (Nat.ltb_spec (j + q) j); [lia|]. destruct (Nat.ltb_spec i (j + q)); [lia|]. cbn [orb].
        destruct (Nat.eqb_spec (j + q) j); [lia|]. f_equal. lia.
  Qed.

  (** Moving up while the elements are greater than t *)
  Definition shifted m t j i m' : Prop := length m' = length m /\
    (forall p, p < j \/ i < p -> v m' p = v m p) /\
    (forall p, j < p <= i -> v m' p = v m (p - 1)) /\
    (forall p, j <= p < i -> comp t (v m p) = true).

  Lemma shifted_step m t j i m' : shifted m t j i m' -> i < length m -> 0 < j <= i -> comp t (v m' (j - 1)) = true ->
    shifted m t (j - 1) i (upd m' j (v m' (j - 1))).
  Proof.
    intros (L & E1 & E2 & E3) Hi Hj C. split; [now rewrite upd_length|]. split; [|split].
    - intros p Hp. rewrite v_upd by lia. destruct (Nat.eqb_spec p j); [lia|]. apply E1. lia.
    - intros p Hp. rewrite v_upd by lia. destruct (Nat.eqb_spec p j) as [->|]; [apply E1; lia|apply E2; lia].
    - intros p Hp. destruct (Nat.eq_dec p (j - 1)) as [->|]; [|apply E3; lia]. now rewrite <- E1 by lia.
  Qed.

  Lemma shifted_done m j i m' : shifted m (v m i) j i m' -> i < length m -> j <= i -> inserted m j i (upd m' j (v m i)).
  Proof.
    intros (L & E1 & E2 & E3) Hi Hj. split; [now rewrite upd_length|]. split; [|split].
    - intros p Hp. rewrite v_upd by lia. destruct (Nat.eqb_spec p j); [lia|]. apply E1. lia.
    - rewrite v_upd by lia. now rewrite Nat.eqb_refl.
    - intros p Hp. rewrite v_upd by lia. destruct (Nat.eqb_spec p j); [lia|]. apply E2. lia.
  Qed.

  (** Insertion keeps the order *)
  Lemma inserted_sorted m first j i m' : sorted_in m first i -> first <= j <= i -> inserted m j i m' ->
    (forall p, j <= p < i -> comp (v m i) (v m p) = true) -> (first < j -> le (v m (j - 1)) (v m i)) ->
    sorted_in m' first (S i).
  Proof.
    intros S Hj (L & E1 & E2 & E3) G B. apply sorted_in_step. intros p Hp1 Hp2.
    destruct (Nat.lt_trichotomy (Datatypes.S p) j) as [C|[C|C]].
    - rewrite !E1 by lia. apply S; lia.
    - rewrite C, E2, E1 by lia. replace p with (j - 1) by lia. apply B. lia.
    - destruct (Nat.eq_dec p j) as [->|].
      + rewrite E2, E3 by lia. replace (Datatypes.S j - 1) with j by lia. apply lt_le, G. lia.
      + rewrite !E3 by lia. apply S; lia.
  Qed.

  Lemma linear_insert_ok k m first i : i < length m -> first < i -> i - first <= k ->
    comp (v m i) (v m (i - 1)) = true ->
    wp (linear_insert comp k m first i (i - 1)) (fun m' =>
      exists j, first <= j < i /\ inserted m j i m' /\ (forall p, j <= p < i -> comp (v m i) (v m p) = true) /\
        (first < j -> le (v m (j - 1)) (v m i))).
  Proof.
    intros Hi Hf Hk C. unfold linear_insert. apply wp_bind, (wp_rd_v d0); [lia|]. apply wp_bind.
    apply (wp_mono _ (fun '(m', j) => first <= j < i /\ shifted m (v m i) j i m' /\
      (first < j -> le (v m (j - 1)) (v m i)))).
    - apply (wp_iter (fun '((m', j, p) : list A * nat * nat) => first < j <= i /\ p = j - 1 /\ shifted m (v m i) j i m' /\
          comp (v m i) (v m' p) = true) (fun '((m', j, p) : list A * nat * nat) => j - first - 1)).
      + intros [[m' j] p] (Hj & -> & S & Cp). pose proof S as (L & E1 & _).
        apply wp_bind, (wp_rd_v d0); [lia|]. apply wp_bind, wp_wr; [lia|]. cbv zeta.
        pose proof (shifted_step _ _ _ _ _ S Hi ltac:(lia) Cp) as S'. pose proof S' as (L' & E1' & _).
        destruct (Nat.eqb_spec (j - 1) first) as [E|NE].
        { cbn [wp]. split; [lia|]. split; [exact S'|lia]. }
        apply wp_bind, wp_dec; [lia|]. apply wp_bind, (wp_rd_v d0); [lia|].
        destruct (comp (v m i) (v _ (j - 1 - 1))) eqn:C2; cbn [wp].
        * split; [|lia]. split; [lia|]. split; [reflexivity|]. split; [exact S'|exact C2].
        * split; [lia|]. split; [exact S'|]. intros _. rewrite E1' in C2 by lia. exact C2.
      + split; [lia|]. split; [reflexivity|]. split; [|exact C]. repeat split; intros; lia || reflexivity.
      + lia.
    - intros [m' j] (Hj & S & B). pose proof S as (L & _). apply wp_wr; [lia|].
      exists j. split; [lia|]. split; [now apply shifted_done; [|lia|lia]|]. split; [apply S|exact B].
  Qed.

  (** Used as one step of insertion sort *)
  Lemma insert_step k m0 m first i last : valid m0 first last -> rr first last m0 m -> first < i < last -> i - first <= k ->
    sorted_in m first i -> comp (v m i) (v m (i - 1)) = true ->
    wp (linear_insert comp k m first i (i - 1)) (fun m' => rr first last m0 m' /\ sorted_in m' first (S i)).
  Proof.
    intros V R Hi Hk S C. pose proof V as [V1 V2]. pose proof R as [L _].
    eapply wp_mono; [apply linear_insert_ok; [lia|lia|exact Hk|exact C]|]. intros m' (j & Hj & I & G & B). split.
    - eapply rr_trans; [exact V|exact R|]. apply (rr_wider j (Datatypes.S i)); [split; lia|lia|lia|lia|]. apply inserted_rr; [lia|lia|exact I].
    - eapply inserted_sorted; [exact S| |exact I|exact G|exact B]. lia.
  Qed.

  (** Nothing to insert *)
  Lemma keep_step m first i : sorted_in m first i -> first < i -> comp (v m i) (v m (i - 1)) = false -> sorted_in m first (S i).
  Proof.
    intros S Hi C. apply sorted_in_step. intros p H1 H2. destruct (Nat.eq_dec (Datatypes.S p) i) as [E|N].
    - rewrite E. replace p with (i - 1) by lia. exact C.
    - apply S; lia.
  Qed.

  Lemma insertion_sort_3_ok k m first last : valid m first last -> 3 <= last - first -> last - first <= k ->
    wp (insertion_sort_3 comp k m first last) (fun m' => rr first last m m' /\ sorted_in m' first last).
  Proof.
    intros V Hl Hk. pose proof V as [V1 V2]. unfold insertion_sort_3. cbv zeta. apply wp_bind.
    eapply wp_mono; [apply (sort3_ok m first last); [exact V|repeat split; lia]|]. intros [m1 n] (R & O1 & O2 & _). cbn [fst].
    apply (wp_iter (fun '((m', i, j) : list A * nat * nat) => first + 3 <= i <= last /\ j = i - 1 /\ rr first last m m' /\ sorted_in m' first i)
      (fun '((m', i, j) : list A * nat * nat) => last - i)).
    - intros [[m' i] j] (Hi & -> & R' & S). pose proof R' as [L' _]. destruct (Nat.eqb_spec i last) as [->|N].
      { cbn [wp]. auto. }
      apply wp_bind, wp_cmp; [lia|lia|]. destruct (comp _ _) eqn:C.
      + apply wp_bind. eapply wp_mono; [apply (insert_step k m m' first i last); auto; lia|].
        intros m2 [R2 S2]. cbn [wp]. split; [|lia]. split; [lia|]. split; [lia|]. now split.
      + cbn [wp]. split; [|lia]. split; [lia|]. split; [lia|]. split; [exact R'|]. apply keep_step; auto; lia.
    - split; [lia|]. split; [lia|]. split; [exact R|]. apply sorted_in_step. intros i Hi Hj.
      assert (D : i = first \/ i = first + 1) by lia. destruct D as [-> | ->].
      + now replace (S first) with (first + 1) by lia.
      + now replace (S (first + 1)) with (first + 2) by lia.
    - lia.
  Qed.

  Lemma insertion_sort_incomplete_ok k m first last : valid m first last -> last - first < k ->
    wp (insertion_sort_incomplete comp k m first last) (fun '(m', b) => rr first last m m' /\ (b = true -> sorted_in m' first last)).
  Proof.
    intros V Hk. pose proof V as [V1 V2]. unfold insertion_sort_incomplete. cbv zeta. apply wp_bind.
    eapply wp_mono; [apply sort_few_ok; exact V|]. intros [m1|] H.
    { cbn [wp]. destruct H. auto. }
    apply wp_bind.
    eapply wp_mono; [apply (sort3_ok m first last); [exact V|repeat split; lia]|]. intros [m1 n] (R & O1 & O2 & _). cbn [fst].
    apply (wp_iter (fun '((m', i, j, c) : list A * nat * nat * nat) => first + 3 <= i <= last /\ j = i - 1 /\ rr first last m m' /\ sorted_in m' first i)
      (fun '((m', i, j, c) : list A * nat * nat * nat) => last - i)).
    - intros [[[m' i] j] c] (Hi & -> & R' & S). pose proof R' as [L' _]. destruct (Nat.eqb_spec i last) as [->|N].
      { cbn [wp]. auto. }
      apply wp_bind, wp_cmp; [lia|lia|]. destruct (comp _ _) eqn:C.
      + apply wp_bind. eapply wp_mono; [apply (insert_step k m m' first i last); auto; lia|].
        intros m2 [R2 S2]. destruct (Nat.eqb_spec (Datatypes.S c) 8).
        * cbn [wp]. split; [exact R2|]. intros E. apply Nat.eqb_eq in E. now rewrite <- E.
        * cbn [wp]. split; [|lia]. split; [lia|]. split; [lia|]. now split.
      + cbn [wp]. split; [|lia]. split; [lia|]. split; [lia|]. split; [exact R'|]. apply keep_step; auto; lia.
    - split; [lia|]. split; [lia|]. split; [exact R|]. apply sorted_in_step. intros i Hi Hj.
      assert (D : i = first \/ i = first + 1) by lia. destruct D as [-> | ->].
      + now replace (S first) with (first + 1) by lia.
      + now replace (S (first + 1)) with (first + 2) by lia.
    - lia.
  Qed.
End P.
