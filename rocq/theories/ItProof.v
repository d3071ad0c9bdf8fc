(** Proofs about the random-access iterator adaptors. *)
From Coq Require Import List Arith Bool ZArith Lia ZifyBool ZifyNat.
From Verif Require Import Base SearchModel ItModel ItSpec OrderSpec.
Import ListNotations.
Open Scope Z_scope.

Notation ok f := (fun s t => f s = Ok t).

(** ** Iterators that are a function of the number of increments *)
Section Generic.
  Context {S A : Type}.
  Variables (next : S -> res S) (f : nat -> S) (xs : list A).
  Hypothesis Hnext : forall i, (i < length xs)%nat -> next (f i) = Ok (f (Datatypes.S i)).

  Lemma after_f i : (i <= length xs)%nat -> after (ok next) (f 0%nat) i (f i).
  Proof using Hnext.
    induction i as [|i IH]; intros L; [constructor |].
    apply after_S with (f i); [apply IH; lia | apply Hnext; lia].
  Qed.

  Lemma after_inv i : forall s, (i <= length xs)%nat -> after (ok next) (f 0%nat) i s -> s = f i.
  Proof using Hnext.
    induction i as [|i IH]; intros s L H; inversion H; subst; [reflexivity |].
    match goal with U : after _ _ i ?u |- _ => apply IH in U; [subst u | lia] end.
    rewrite Hnext in * by lia. congruence.
  Qed.

  Lemma traverses_f (deref : S -> res A) (eq : S -> S -> bool) :
    (forall i x, nth_error xs i = Some x -> deref (f i) = Ok x) ->
    (forall i j, (i <= length xs)%nat -> (j <= length xs)%nat -> eq (f i) (f j) = (i =? j)%nat) ->
    traverses (ok next) (ok deref) eq (f 0%nat) (f (length xs)) xs.
  Proof using Hnext.
    intros Hd He. split; [apply after_f; lia |]. split; [| split].
    - intros i x H. exists (f i). split; [| now apply Hd].
      apply after_f. enough (i < length xs)%nat by lia. apply nth_error_Some. congruence.
    - intros i j s t Li Lj Hs Ht. apply after_inv in Hs, Ht; auto. subst. now apply He.
    - intros i s t Hs Ht Li. apply after_inv in Hs, Ht; auto. congruence.
  Qed.

  Lemma retreats_f (prev : S -> res S) :
    (forall i, (i < length xs)%nat -> prev (f (Datatypes.S i)) = Ok (f i)) ->
    retreats (ok next) (ok prev) (f 0%nat) xs.
  Proof using Hnext.
    intros Hp i s t L Hs Ht. apply after_inv in Hs; [subst | lia].
    rewrite Hnext in Ht by lia. injection Ht as <-. now apply Hp.
  Qed.
End Generic.

(** ** Loops over them *)
Section Loops.
  Context {S A : Type}.
  Variables (next : S -> res S) (deref : S -> res A) (eq : S -> S -> bool).

  Lemma after_step (b s : S) (n : nat) : after (ok next) b (Datatypes.S n) s ->
    exists b', next b = Ok b' /\ after (ok next) b' n s.
  Proof.
    revert s. induction n as [|n IH]; intros s H; inversion H as [|i u v Hu Hv E1 E2]; subst.
    - inversion Hu; subst. exists s. split; [exact Hv | constructor].
    - apply IH in Hu. destruct Hu as (b' & N & W). exists b'. split; [exact N |].
      apply after_S with u; assumption.
  Qed.

  Lemma walk_lemma xs : forall b e (k : nat), traverses (ok next) (ok deref) eq b e xs ->
    (length xs < k)%nat -> walk k (fun s => eq s e) next deref b = Ok xs.
  Proof.
    induction xs as [|x xs IH]; intros b e k (He & Hd & Hq & Hu) L;
      (destruct k as [|k]; [lia |]); cbn [walk].
    - inversion He; subst. rewrite (Hq 0%nat 0%nat e e); [reflexivity | lia | lia | constructor | constructor].
    - cbn [length] in *.
      rewrite (Hq 0%nat (Datatypes.S (length xs)) b e); [| lia | lia | constructor | exact He]. cbn [Nat.eqb].
      destruct (Hd 0%nat x eq_refl) as (s & Hs & Ds). inversion Hs; subst. rewrite Ds. cbn [bind].
      apply after_step in He. destruct He as (b' & N & W). rewrite N. cbn [bind].
      rewrite (IH b' e k); [reflexivity | | lia].
      assert (G : forall i t, after (ok next) b' i t -> after (ok next) s (Datatypes.S i) t).
      { clear -N. intros i t H. induction H; [apply after_S with s; [constructor | exact N] |].
        eapply after_S; eassumption. }
      split; [exact W |]. split; [| split].
      + intros i y Hy. destruct (Hd (Datatypes.S i) y Hy) as (t & Ht & Dt).
        apply after_step in Ht. destruct Ht as (b2 & N2 & W2). rewrite N in N2. injection N2 as <-.
        exists t. auto.
      + intros i j t u Li Lj Ht Hu2.
        rewrite (Hq (Datatypes.S i) (Datatypes.S j) t u); [reflexivity | lia | lia | auto | auto].
      + intros i t u Ht Hu2 Li. apply (Hu (Datatypes.S i)); [auto | auto | lia].
  Qed.

  Lemma firstn_snoc_nth {B} (l : list B) n x : nth_error l n = Some x ->
    firstn (Datatypes.S n) l = firstn n l ++ [x].
  Proof.
    revert n. induction l as [|y l IH]; intros [|n] H; cbn in *; try discriminate.
    - now injection H as ->.
    - f_equal. now apply IH.
  Qed.

  Lemma walk_back_lemma (prev : S -> res S) xs b e (k : nat) : traverses (ok next) (ok deref) eq b e xs ->
    retreats (ok next) (ok prev) b xs -> (length xs < k)%nat ->
    walk_back k (fun s => eq s b) prev deref e = Ok (rev xs).
  Proof.
    intros (He & Hd & Hq & Hu) Hr.
    assert (G : forall n s (k : nat), (n <= length xs)%nat -> (n < k)%nat -> after (ok next) b n s ->
              walk_back k (fun s => eq s b) prev deref s = Ok (rev (firstn n xs))).
    { induction n as [|n IH]; intros s k' L K Hs; (destruct k' as [|k']; [lia |]); cbn [walk_back].
      - inversion Hs; subst. rewrite (Hq 0%nat 0%nat s s); [reflexivity | lia | lia | constructor | constructor].
      - rewrite (Hq (Datatypes.S n) 0%nat s b); [| lia | lia | exact Hs | constructor]. cbn [Nat.eqb].
        inversion Hs as [|i u v Hu2 Hv E1 E2]; subst.
        rewrite (Hr n u s); [| lia | exact Hu2 | exact Hv]. cbn [bind].
        destruct (nth_error xs n) as [x|] eqn:E; [| apply nth_error_None in E; lia].
        destruct (Hd n x E) as (u' & Hu' & Du). rewrite (Hu n u' u) in Du; [| assumption | assumption | lia].
        rewrite Du. cbn [bind]. rewrite (IH u k'); [| lia | lia | exact Hu2]. cbn [bind].
        rewrite (firstn_snoc_nth xs n x E), rev_app_distr. reflexivity. }
    intros K. rewrite (G (length xs) e k); [now rewrite firstn_all | lia | exact K | exact He].
  Qed.
End Loops.

Lemma mv_ok n p k : 0 <= p + k <= n -> mv n p k = Ok (p + k).
Proof. intros H. unfold mv. replace ((0 <=? p + k) && (p + k <=? n)) with true by lia. reflexivity. Qed.

Lemma mv_to n p k q : p + k = q -> 0 <= q <= n -> mv n p k = Ok q.
Proof. intros <-. apply mv_ok. Qed.

Lemma mv_out n p k : p + k < 0 \/ n < p + k -> mv n p k = UB.
Proof. intros H. unfold mv. replace ((0 <=? p + k) && (p + k <=? n)) with false by lia. reflexivity. Qed.

Lemma get_ok {A} (l : list A) (i : nat) p x : p = Z.of_nat i -> nth_error l i = Some x -> get l p = Ok x.
Proof.
  intros -> H. unfold get. replace (Z.of_nat i <? 0) with false by lia.
  unfold rd. rewrite Nat2Z.id, H. reflexivity.
Qed.

Lemma nth_error_lt {A} (l : list A) i x : nth_error l i = Some x -> (i < length l)%nat.
Proof. intros H. apply nth_error_Some. congruence. Qed.

(** ** limited *)
Lemma lplus_lemma lo hi a b : lo <= 0 <= hi -> lo <= a <= hi -> lo <= b <= hi ->
  lplus lo hi a b = Ok (saturated lo hi (a + b)).
Proof.
  intros H Ha Hb. unfold lplus, saturated, chk.
  destruct ((0 <? a) && (0 <? b) && (hi - a <? b)) eqn:E1; [f_equal; lia |].
  destruct ((a <? 0) && (b <? 0) && (b <? lo - a)) eqn:E2; [f_equal; lia |].
  replace ((lo <=? a + b) && (a + b <=? hi)) with true by lia. f_equal. lia.
Qed.

Lemma lplus_exact lo hi a b : lo <= 0 <= hi -> lo <= a <= hi -> lo <= b <= hi -> lo <= a + b <= hi ->
  lplus lo hi a b = Ok (a + b).
Proof. intros H Ha Hb Hc. rewrite lplus_lemma by assumption. unfold saturated. f_equal. lia. Qed.

(** the quotient rounded away from zero *)
Lemma quot_up x y (q r : Z) : y <> 0 -> q = Z.quot x y -> r = Z.rem x y ->
  x = y * q + r /\ Z.abs r < Z.abs y /\ (0 <= x -> 0 <= r) /\ (x <= 0 -> r <= 0).
Proof.
  intros Hy -> ->. repeat split.
  - apply Z.quot_rem'.
  - now apply Z.rem_bound_abs.
  - intros H. destruct (Z.eq_dec x 0) as [-> | Hx]; [rewrite Z.rem_0_l; lia |].
    apply Z.rem_nonneg; lia.
  - intros H. apply Z.rem_nonpos; lia.
Qed.

Lemma div_up_pos lo hi x y : lo <= 0 <= hi -> 0 <= x <= hi -> 0 < y ->
  exists q, div_up lo hi x y = Ok q /\ forall z, q <= z <-> x <= y * z.
Proof.
  intros H Hx Hy. unfold div_up, chk.
  destruct (quot_up x y _ _ (ltac:(lia)) eq_refl eq_refl) as (E & B & R1 & _).
  set (q := Z.quot x y) in *. set (r := Z.rem x y) in *.
  specialize (R1 ltac:(lia)).
  assert (0 <= q) by nia. assert (q <= x) by nia.
  replace ((lo <=? q) && (q <=? hi)) with true by lia. cbn [bind].
  assert (C : q + (if r =? 0 then 0 else 1) <= hi).
  { destruct (r =? 0) eqn:R; [lia |]. assert (q + 1 <= x) by nia. lia. }
  replace ((lo <=? q + (if r =? 0 then 0 else 1)) && (q + (if r =? 0 then 0 else 1) <=? hi)) with true
    by (destruct (r =? 0); lia).
  eexists. split; [reflexivity |]. intros z. destruct (r =? 0) eqn:R; split; intros Z; nia.
Qed.

Lemma div_up_neg lo hi x y : lo <= 0 -> 1 <= hi -> lo <= x <= 0 -> - hi - 1 <= x -> y < -1 ->
  exists q, div_up lo hi x y = Ok q /\ 0 <= q <= hi /\ forall z, q <= z <-> y * z <= x.
Proof.
  intros H H' Hx Hh Hy. unfold div_up, chk.
  destruct (quot_up x y _ _ (ltac:(lia)) eq_refl eq_refl) as (E & B & _ & R2).
  set (q := Z.quot x y) in *. set (r := Z.rem x y) in *.
  specialize (R2 ltac:(lia)).
  assert (0 <= q) by nia. assert (2 * q <= - x) by nia.
  replace ((lo <=? q) && (q <=? hi)) with true by lia. cbn [bind].
  assert (C : q + (if r =? 0 then 0 else 1) <= hi).
  { destruct (r =? 0) eqn:R; [lia |]. assert (2 * q + 1 <= - x) by nia. lia. }
  replace ((lo <=? q + (if r =? 0 then 0 else 1)) && (q + (if r =? 0 then 0 else 1) <=? hi)) with true
    by (destruct (r =? 0); lia).
  eexists. split; [reflexivity |]. split; [destruct (r =? 0); lia |].
  intros z. destruct (r =? 0) eqn:R; split; intros Z; nia.
Qed.

(** the divisor is -1 *)
Definition bad_factor (a b : Z) : Prop := (b = -1 /\ a <> 0) \/ (a = -1 /\ 0 < b).

Lemma lmultiplies_lemma lo hi a b : (lo = - hi - 1 \/ lo = 0) -> 1 <= hi -> lo <= a <= hi -> lo <= b <= hi ->
  ~ bad_factor a b -> lmultiplies lo hi a b = Ok (saturated lo hi (a * b)).
Proof.
  intros Hl Hh Ha Hb Hn. unfold bad_factor in Hn. unfold lmultiplies, saturated.
  destruct ((0 <? a) && (0 <? b)) eqn:E1.
  { destruct (div_up_pos lo hi hi a) as (q & -> & Q); [lia | lia | lia |]. cbn [bind].
    specialize (Q b). unfold chk. destruct (q <=? b) eqn:B; [f_equal; lia |].
    replace ((lo <=? a * b) && (a * b <=? hi)) with true by nia. f_equal. nia. }
  destruct ((0 <? a) && (b <? 0)) eqn:E2.
  { destruct (div_up_neg lo hi lo b) as (q & -> & _ & Q); [lia | lia | lia | lia | lia |]. cbn [bind].
    specialize (Q a). unfold chk. destruct (q <=? a) eqn:B; [f_equal; nia |].
    replace ((lo <=? a * b) && (a * b <=? hi)) with true by nia. f_equal. nia. }
  destruct ((a <? 0) && (0 <? b)) eqn:E3.
  { destruct (div_up_neg lo hi lo a) as (q & -> & _ & Q); [lia | lia | lia | lia | lia |]. cbn [bind].
    specialize (Q b). unfold chk. destruct (q <=? b) eqn:B; [f_equal; nia |].
    replace ((lo <=? a * b) && (a * b <=? hi)) with true by nia. f_equal. nia. }
  destruct ((a <? 0) && (b <? 0)) eqn:E4.
  { destruct (div_up_neg lo hi lo b) as (q & -> & _ & Q); [lia | lia | lia | lia | lia |]. cbn [bind].
    specialize (Q (- a)). unfold chk. destruct (a <=? - q) eqn:B; [f_equal; nia |].
    replace ((lo <=? a * b) && (a * b <=? hi)) with true by nia. f_equal. nia. }
  assert (a * b = 0) as -> by nia. unfold chk. replace ((lo <=? 0) && (0 <=? hi)) with true by lia. f_equal. lia.
Qed.

Lemma lmultiplies_bad lo hi a b : lo = - hi - 1 -> 0 <= hi -> bad_factor a b ->
  lmultiplies lo hi a b = UB.
Proof.
  intros Hl Hh [[-> Ha] | [-> Hb]]; unfold lmultiplies.
  - assert (D : div_up lo hi lo (-1) = UB).
    { unfold div_up, chk. replace (Z.quot lo (-1)) with (- lo).
      - replace ((lo <=? - lo) && (- lo <=? hi)) with false by lia. reflexivity.
      - symmetry. rewrite <- (Z.quot_opp_opp lo (-1)) by lia. cbn. apply Z.quot_1_r. }
    destruct (0 <? a) eqn:E; cbn [andb Z.ltb Z.compare].
    + rewrite D. reflexivity.
    + replace (a <? 0) with true by lia. cbn [andb]. rewrite D. reflexivity.
  - assert (D : div_up lo hi lo (-1) = UB).
    { unfold div_up, chk. replace (Z.quot lo (-1)) with (- lo).
      - replace ((lo <=? - lo) && (- lo <=? hi)) with false by lia. reflexivity.
      - symmetry. rewrite <- (Z.quot_opp_opp lo (-1)) by lia. cbn. apply Z.quot_1_r. }
    cbn [andb Z.ltb Z.compare]. replace (0 <? b) with true by lia. cbn [andb]. rewrite D. reflexivity.
Qed.

(** ** reverse_iterator *)
Section ReverseP.
  Context {A : Type}.
  Variable l : list A.
  Definition rvf (i : nat) : Z := len l - Z.of_nat i.

  Lemma rvf_next i : (i < length (rev l))%nat -> rv_next l (rvf i) = Ok (rvf (S i)).
  Proof using. rewrite rev_length. intros H. unfold rv_next, rvf, len. apply mv_to; lia. Qed.

  Lemma rev_nth_error i x : nth_error (rev l) i = Some x -> nth_error l (length l - S i) = Some x.
  Proof using.
    intros H. pose proof (nth_error_lt _ _ _ H) as L. rewrite rev_length in L.
    apply (nth_error_nth _ _ x) in H. rewrite rev_nth in H by exact L.
    rewrite <- H. apply nth_error_nth'. lia.
  Qed.

  Lemma rvf_deref i x : nth_error (rev l) i = Some x -> rv_deref l (rvf i) = Ok x.
  Proof using.
    intros H. pose proof (nth_error_lt _ _ _ H) as L. rewrite rev_length in L.
    unfold rv_deref, rvf, len. rewrite mv_ok by lia. cbn [bind].
    apply get_ok with (length l - S i)%nat; [lia | now apply rev_nth_error].
  Qed.

  Lemma rv_begin_f : rv_begin l = rvf 0. Proof using. unfold rv_begin, rvf. lia. Qed.
  Lemma rv_end_f : rv_end = rvf (length (rev l)). Proof using. unfold rv_end, rvf, len. rewrite rev_length. lia. Qed.

  Lemma reverse_traverses_lemma :
    traverses (ok (rv_next l)) (ok (rv_deref l)) rv_eq (rv_begin l) rv_end (rev l) /\
    retreats (ok (rv_next l)) (ok (rv_prev l)) (rv_begin l) (rev l).
  Proof using.
    rewrite rv_begin_f, rv_end_f. split.
    - apply traverses_f; [exact rvf_next | exact rvf_deref |].
      intros i j Hi Hj. rewrite rev_length in *. unfold rv_eq, rvf. lia.
    - apply retreats_f; [exact rvf_next |]. intros i Hi. rewrite rev_length in Hi.
      unfold rv_prev, rvf, len. apply mv_to; lia.
  Qed.

  Lemma reversed_lemma k : (length l < k)%nat -> reversed l k = Ok (rev l).
  Proof using.
    intros H. unfold reversed. destruct reverse_traverses_lemma as (T & _).
    apply (walk_lemma _ _ _ _ _ _ _ T). now rewrite rev_length.
  Qed.

  Ltac inv_after H := apply (after_inv (rv_next l) rvf (rev l) rvf_next) in H; [subst | assumption].

  Lemma reverse_offsets_lemma :
    offsets (ok (rv_next l)) (fun s n t => rv_plus l s n = Ok t) (fun s n t => rv_minus l s n = Ok t)
      (fun s n x => rv_sub l s n = Ok x) (rv_begin l) (rev l) /\
    measures (ok (rv_next l)) (fun t s d => rv_diff t s = d) (rv_begin l) (rev l).
  Proof using.
    rewrite rv_begin_f. split; intros i j s t Hi Hj Hs Ht; inv_after Hs; inv_after Ht; rewrite rev_length in *.
    - split; [| split].
      + unfold rv_plus, rvf, len. apply mv_to; lia.
      + unfold rv_minus, rvf, len. apply mv_to; lia.
      + intros x Hx. pose proof (nth_error_lt _ _ _ Hx) as L. rewrite rev_length in L.
        unfold rv_sub, rvf, len. rewrite mv_ok by lia. cbn [bind].
        apply get_ok with (length l - S j)%nat; [lia | now apply rev_nth_error].
    - unfold rv_diff, rvf. lia.
  Qed.

  Lemma reverse_less_lemma i j s t : (i <= length l)%nat -> (j <= length l)%nat ->
    after (ok (rv_next l)) (rv_begin l) i s -> after (ok (rv_next l)) (rv_begin l) j t ->
    rv_lt s t = (j <? i)%nat /\ rv_gt s t = (i <? j)%nat /\ rv_le s t = (j <=? i)%nat /\ rv_ge s t = (i <=? j)%nat.
  Proof using.
    rewrite rv_begin_f, <- (rev_length l). intros Hi Hj Hs Ht. inv_after Hs. inv_after Ht. rewrite rev_length in *.
    unfold rv_ge, rv_le, rv_gt, rv_lt, rvf. repeat split; lia.
  Qed.
End ReverseP.

(** ** joint_iterator *)
Section JointP.
  Context {A : Type}.
  Variables l1 l2 : list A.
  Notation n1 := (length l1).
  Definition jtf (i : nat) : Z * Z := (Z.of_nat (Nat.min i n1), Z.of_nat (i - n1)).

  Lemma jtf_left i : jt_left l1 (jtf i) = (i <? n1)%nat.
  Proof using. unfold jt_left, jtf, len. cbn [fst]. lia. Qed.

  Lemma jtf_next i : (i < length (l1 ++ l2))%nat -> jt_next l1 l2 (jtf i) = Ok (jtf (S i)).
  Proof using.
    rewrite app_length. intros H. unfold jt_next. rewrite jtf_left. unfold jtf, len. cbn [fst snd].
    destruct (i <? n1)%nat eqn:E; rewrite mv_ok by lia; cbn [bind]; f_equal; f_equal; lia.
  Qed.

  Lemma jtf_deref i x : nth_error (l1 ++ l2) i = Some x -> jt_deref l1 l2 (jtf i) = Ok x.
  Proof using.
    intros H. pose proof (nth_error_lt _ _ _ H) as L. rewrite app_length in L.
    unfold jt_deref. rewrite jtf_left. unfold jtf. cbn [fst snd].
    destruct (i <? n1)%nat eqn:E.
    - rewrite nth_error_app1 in H by lia. apply get_ok with i; [lia | exact H].
    - rewrite nth_error_app2 in H by lia. apply get_ok with (i - n1)%nat; [lia | exact H].
  Qed.

  Lemma jtf_end : jt_end l1 l2 = jtf (length (l1 ++ l2)).
  Proof using. unfold jt_end, jtf, len. rewrite app_length. f_equal; lia. Qed.

  Lemma joint_traverses_lemma :
    traverses (ok (jt_next l1 l2)) (ok (jt_deref l1 l2)) jt_eq jt_begin (jt_end l1 l2) (l1 ++ l2) /\
    retreats (ok (jt_next l1 l2)) (ok (jt_prev l1 l2)) jt_begin (l1 ++ l2).
  Proof using.
    rewrite jtf_end. change jt_begin with (jtf 0). split.
    - apply traverses_f; [exact jtf_next | exact jtf_deref |].
      intros i j Hi Hj. unfold jt_eq, jtf. cbn [fst snd]. lia.
    - apply retreats_f; [exact jtf_next |]. rewrite app_length. intros i Hi.
      unfold jt_prev, jtf, len. cbn [fst snd].
      destruct (0 =? Z.of_nat (S i - n1)) eqn:E; rewrite mv_ok by lia; cbn [bind]; f_equal; f_equal; lia.
  Qed.

  Lemma jointed_lemma k : (length l1 + length l2 < k)%nat ->
    jointed l1 l2 k = Ok (l1 ++ l2) /\ jointed_back l1 l2 k = Ok (rev (l1 ++ l2)).
  Proof using.
    intros H. destruct joint_traverses_lemma as (T & R). rewrite <- app_length in H. split.
    - apply (walk_lemma _ _ _ _ _ _ _ T H).
    - apply (walk_back_lemma _ _ _ _ _ _ _ _ T R H).
  Qed.

  Lemma jtf_plus i j : (i <= length (l1 ++ l2))%nat -> (j <= length (l1 ++ l2))%nat ->
    jt_plus l1 l2 (jtf i) (Z.of_nat j - Z.of_nat i) = Ok (jtf j).
  Proof using.
    rewrite app_length. intros Hi Hj. unfold jt_plus. rewrite jtf_left. unfold jt_posite, jt_negate, jtf, len. cbn [fst snd].
    destruct (0 <=? Z.of_nat j - Z.of_nat i) eqn:E1.
    - destruct (i <? n1)%nat eqn:E2.
      + destruct (Z.of_nat n1 - Z.of_nat (Nat.min i n1) <? Z.of_nat j - Z.of_nat i) eqn:E3;
          rewrite mv_ok by lia; cbn [bind]; f_equal; f_equal; lia.
      + rewrite mv_ok by lia; cbn [bind]; f_equal; f_equal; lia.
    - destruct (0 =? Z.of_nat (i - n1)) eqn:E2.
      + rewrite mv_ok by lia; cbn [bind]; f_equal; f_equal; lia.
      + destruct (- Z.of_nat (i - n1) <? Z.of_nat j - Z.of_nat i) eqn:E3; cbn [negb];
          rewrite mv_ok by lia; cbn [bind]; f_equal; f_equal; lia.
  Qed.

  Ltac inv_after H := apply (after_inv (jt_next l1 l2) jtf (l1 ++ l2) jtf_next) in H; [subst | assumption].

  Lemma joint_offsets_lemma :
    offsets (ok (jt_next l1 l2)) (fun s n t => jt_plus l1 l2 s n = Ok t) (fun s n t => jt_minus l1 l2 s n = Ok t)
      (fun s n x => jt_sub l1 l2 s n = Ok x) jt_begin (l1 ++ l2) /\
    ordered (ok (jt_next l1 l2)) (jt_lt l1) (jt_gt l1) (jt_le l1) (jt_ge l1) jt_begin (l1 ++ l2).
  Proof using.
    change jt_begin with (jtf 0). split; intros i j s t Hi Hj Hs Ht; inv_after Hs; inv_after Ht.
    - split; [| split].
      + now apply jtf_plus.
      + unfold jt_minus. rewrite <- (jtf_plus j i) by assumption. f_equal. lia.
      + intros x Hx. unfold jt_sub. rewrite jtf_plus by assumption. cbn [bind]. now apply jtf_deref.
    - unfold jt_ge, jt_le, jt_gt, jt_lt. rewrite !jtf_left. unfold jtf. cbn [fst snd].
      destruct (i <? n1)%nat eqn:E1, (j <? n1)%nat eqn:E2; cbn [andb negb]; repeat split; lia.
  Qed.

  Lemma joint_difference_lemma i j s t : Z.of_nat (length l1 + length l2) <= pmax ->
    (i <= length l1 + length l2)%nat -> (j <= length l1 + length l2)%nat ->
    after (ok (jt_next l1 l2)) jt_begin i s -> after (ok (jt_next l1 l2)) jt_begin j t ->
    jt_diff l1 t s = Ok (if (j <? length l1)%nat && negb (i <? length l1)%nat then Z.of_nat i - Z.of_nat j
                            else Z.of_nat j - Z.of_nat i).
  Proof using.
    change jt_begin with (jtf 0). rewrite <- app_length. intros B Hi Hj Hs Ht. inv_after Hs. inv_after Ht.
    rewrite app_length in *. unfold pmax in B.
    unfold jt_diff. rewrite !jtf_left. unfold jtf, len. cbn [fst snd].
    assert (P : pmin <= 0 <= pmax) by (unfold pmin, pmax; lia).
    destruct (i <? n1)%nat eqn:E1, (j <? n1)%nat eqn:E2; cbn [andb negb].
    - f_equal. lia.
    - rewrite lplus_exact; [f_equal; lia | exact P | unfold pmin, pmax; lia | unfold pmin, pmax; lia | unfold pmin, pmax; lia].
    - rewrite lplus_exact; [f_equal; lia | exact P | unfold pmin, pmax; lia | unfold pmin, pmax; lia | unfold pmin, pmax; lia].
    - f_equal. lia.
  Qed.
End JointP.
