(** Proofs about tribool, optional and variant. *)
From Coq Require Import List Arith Bool Lia.
From Verif Require Import Base BaseProof OrderSpec FixProof OptModel OptSpec.
Import ListNotations.

(** ** tribool *)
Lemma tri_overloads_lemma x b :
  tri_and_bool x b = tri_and x (tri_of b) /\ bool_and_tri b x = tri_and (tri_of b) x /\
  ind_and_tri x = tri_and Indeterminate_value x /\ tri_and_ind x = tri_and x Indeterminate_value /\
  tri_or_bool x b = tri_or x (tri_of b) /\ bool_or_tri b x = tri_or (tri_of b) x /\
  ind_or_tri x = tri_or Indeterminate_value x /\ tri_or_ind x = tri_or x Indeterminate_value /\
  tri_eq_bool x b = tri_eq x (tri_of b) /\ bool_eq_tri b x = tri_eq (tri_of b) x /\
  ind_eq_tri x = tri_eq Indeterminate_value x /\ tri_eq_ind x = tri_eq x Indeterminate_value /\
  tri_neq_bool x b = tri_neq x (tri_of b) /\ bool_neq_tri b x = tri_neq (tri_of b) x /\
  ind_neq_tri x = tri_neq Indeterminate_value x /\ tri_neq_ind x = tri_neq x Indeterminate_value.
Proof. destruct x, b; repeat split. Qed.

Lemma and_b x b : tri_and_bool x b = tri_and x (tri_of b). Proof. now destruct x, b. Qed.
Lemma b_and x b : bool_and_tri b x = tri_and (tri_of b) x. Proof. now destruct x, b. Qed.
Lemma i_and x : ind_and_tri x = tri_and Indeterminate_value x. Proof. now destruct x. Qed.
Lemma and_i x : tri_and_ind x = tri_and x Indeterminate_value. Proof. now destruct x. Qed.
Lemma or_b x b : tri_or_bool x b = tri_or x (tri_of b). Proof. now destruct x, b. Qed.
Lemma b_or x b : bool_or_tri b x = tri_or (tri_of b) x. Proof. now destruct x, b. Qed.
Lemma i_or x : ind_or_tri x = tri_or Indeterminate_value x. Proof. now destruct x. Qed.
Lemma or_i x : tri_or_ind x = tri_or x Indeterminate_value. Proof. now destruct x. Qed.
Lemma eq_i x : tri_eq_ind x = tri_eq x Indeterminate_value. Proof. now destruct x. Qed.
Lemma neq_i x : tri_neq_ind x = tri_neq x Indeterminate_value. Proof. now destruct x. Qed.

Lemma teval_and rho e f : teval rho (TAnd e f) = tri_and (teval rho e) (teval rho f).
Proof. destruct e, f; first [reflexivity|apply b_and|apply and_b|apply i_and|apply and_i]. Qed.
Lemma teval_or rho e f : teval rho (TOr e f) = tri_or (teval rho e) (teval rho f).
Proof. destruct e, f; first [reflexivity|apply b_or|apply or_b|apply i_or|apply or_i]. Qed.
Lemma teval_eq rho e f : teval rho (TEq e f) = tri_eq (teval rho e) (teval rho f).
Proof. destruct e, f; first [reflexivity|apply eq_i]. Qed.
Lemma teval_neq rho e f : teval rho (TNeq e f) = tri_neq (teval rho e) (teval rho f).
Proof. destruct e, f; first [reflexivity|apply neq_i]. Qed.

Lemma tri_ops_sound x y a b : means x a -> means y b ->
  means (tri_not x) (negb a) /\ means (tri_and x y) (a && b) /\ means (tri_or x y) (a || b) /\
  means (tri_eq x y) (Bool.eqb a b) /\ means (tri_neq x y) (negb (Bool.eqb a b)).
Proof. destruct x, y, a, b; cbn; repeat split; congruence. Qed.

Lemma teval_sound_lemma rho env : (forall n, means (rho n) (env n)) -> forall e b, possible env e b -> means (teval rho e) b.
Proof.
  intros H. induction e as [n|c| |e IH|e IHe f IHf|e IHe f IHf|e IHe f IHf|e IHe f IHf]; intros b P; cbn [possible] in P.
  - subst. apply H.
  - subst. now destruct c.
  - exact I.
  - specialize (IH _ P). change (means (tri_not (teval rho e)) b). rewrite <- (negb_involutive b).
    now apply (tri_ops_sound _ (teval rho e) _ (negb b)).
  - destruct P as (x & y & Px & Py & ->). rewrite teval_and. apply tri_ops_sound; auto.
  - destruct P as (x & y & Px & Py & ->). rewrite teval_or. apply tri_ops_sound; auto.
  - destruct P as (x & y & Px & Py & ->). rewrite teval_eq. apply tri_ops_sound; auto.
  - destruct P as (x & y & Px & Py & ->). rewrite teval_neq. apply tri_ops_sound; auto.
Qed.

Lemma teval_decides_lemma rho env : (forall n, means (rho n) (env n)) -> forall e,
  (tri_true (teval rho e) = true -> forall b, possible env e b -> b = true) /\
  (tri_true (tri_not (teval rho e)) = true -> forall b, possible env e b -> b = false).
Proof.
  intros H e. split; intros T b P; pose proof (teval_sound_lemma rho env H e b P) as M;
    destruct (teval rho e); cbn in *; congruence.
Qed.

Ltac pick := first [exists true, true; cbn; repeat split; congruence | exists true, false; cbn; repeat split; congruence
                   | exists false, true; cbn; repeat split; congruence | exists false, false; cbn; repeat split; congruence].
Lemma tri_ops_exact_lemma x y c :
  (means (tri_not x) c -> means x (negb c)) /\
  (means (tri_and x y) c -> exists a b, means x a /\ means y b /\ c = a && b) /\
  (means (tri_or x y) c -> exists a b, means x a /\ means y b /\ c = a || b) /\
  (means (tri_eq x y) c -> exists a b, means x a /\ means y b /\ c = Bool.eqb a b) /\
  (means (tri_neq x y) c -> exists a b, means x a /\ means y b /\ c = negb (Bool.eqb a b)).
Proof. destruct x, y, c; cbn; repeat split; intros H; try discriminate; try reflexivity; try exact I; try pick. Qed.

(** ** optional *)
Section Optional.
  Context {A : Type}.
  Implicit Types (o p : opt A) (v w : option A).

  Lemma shows_copy o v : shows o v -> exists o', opt_copy o = Ok o' /\ shows o' v.
  Proof.
    destruct o as [i x], v as [a|]; cbn; intros H.
    - destruct H as [-> ->]. cbn. eauto.
    - subst. cbn. eauto.
  Qed.

  Lemma shows_assign o p v : shows p v -> exists o', assign o p = Ok o' /\ shows o' v.
  Proof.
    intros H. destruct (shows_copy p v H) as (q & E & S). unfold assign. rewrite E. cbn [bind].
    eexists. split; [reflexivity|]. unfold opt_swap. cbn [snd]. now destruct q.
  Qed.

  Lemma shows_put (s : nat -> opt A) t i o v : (forall n, shows (s n) (t n)) -> shows o v -> forall n, shows (put s i o n) (put t i v n).
  Proof. intros H K n. unfold put. now destruct (n =? i). Qed.

  Lemma orun1_ok st (s : nat -> opt A) t : (forall n, shows (s n) (t n)) ->
    exists s', orun1 st s = Ok s' /\ forall n, shows (s' n) (srun1 st t n).
  Proof.
    intros H. destruct st as [i|i a|i c a|i j|i j]; cbn [orun1 srun1].
    - eexists. split; [reflexivity|]. apply shows_put; [assumption|reflexivity].
    - eexists. split; [reflexivity|]. apply shows_put; [assumption|]. now cbn.
    - destruct (shows_assign (s i) (opt_cond c a) (if c then Some a else None)) as (o & E & S); [now destruct c|].
      rewrite E. cbn [bind]. eexists. split; [reflexivity|]. now apply shows_put.
    - destruct (shows_assign (s i) (s j) (t j) (H j)) as (o & E & S). rewrite E. cbn [bind].
      eexists. split; [reflexivity|]. now apply shows_put.
    - destruct (Nat.eqb_spec i j) as [<-|Ne].
      + eexists. split; [reflexivity|]. intros n. unfold put. destruct (Nat.eqb_spec n i) as [->|]; apply H.
      + eexists. split; [reflexivity|]. apply shows_put; [apply shows_put; [assumption|]|].
        * specialize (H j). destruct (s j), (t j); exact H.
        * specialize (H i). destruct (s i), (t i); exact H.
  Qed.

  Lemma orun_correct_lemma : forall sts (s : nat -> opt A) t, (forall n, shows (s n) (t n)) ->
    exists s', orun sts s = Ok s' /\ forall n, shows (s' n) (srun sts t n).
  Proof.
    induction sts as [|st sts IH]; intros s t H.
    - exists s. now split.
    - destruct (orun1_ok st s t H) as (s1 & E & K). cbn [orun]. rewrite E. cbn [bind].
      destruct (IH s1 (srun1 st t) K) as (s' & E' & K'). exists s'. now split.
  Qed.

  Lemma observers_correct_lemma o v : shows o v ->
    is_initialized o = (match v with Some _ => true | None => false end) /\
    osize o = (match v with Some _ => 1 | None => 0 end) /\
    oempty o = (match v with Some _ => false | None => true end) /\
    value o = Ok (match v with Some a => Value a | None => Bad_access end) /\
    get_pointer o = Ok (match v with Some a => Value a | None => Null end) /\
    (forall d, value_or o d = Ok (match v with Some a => a | None => d end)) /\
    (forall i, oat o i = Ok (match v, i with Some a, 0 => Value a | _, _ => Out_of_range end)) /\
    deref o = match v with Some a => Ok a | None => UB end.
  Proof.
    destruct o as [i x], v as [a|]; cbn [shows init val].
    - intros [-> ->]. repeat split. intros [|[|k]]; reflexivity.
    - intros ->. now repeat split.
  Qed.

  Lemma constructors_correct_lemma (a : A) c :
    shows (@opt_none A) None /\ shows (opt_some a) (Some a) /\ shows (opt_cond c a) (if c then Some a else None).
  Proof. destruct c; repeat split. Qed.

  Lemma free_get_pointer_refuted_lemma (a : A) : exists s, orun [SSet 0 a; SReset 0] (fun _ => opt_none) = Ok s /\
    is_initialized (s 0) = false /\ get_pointer (s 0) = Ok Null /\ free_get_pointer (s 0) = Value a.
  Proof. eexists. split; [reflexivity|]. repeat split. Qed.

  Variables (eqb less : A -> A -> bool).
  Lemma opt_compare_correct_lemma o p v w : shows o v -> shows p w ->
    opt_eq eqb o p = Ok (option_eq eqb v w) /\ opt_neq eqb o p = Ok (negb (option_eq eqb v w)) /\
    opt_lt less o p = Ok (option_less less v w) /\ opt_gt less o p = Ok (option_less less w v) /\
    opt_le less o p = Ok (negb (option_less less w v)) /\ opt_ge less o p = Ok (negb (option_less less v w)).
  Proof.
    intros H K. destruct o as [i x], p as [j y], v as [a|], w as [b|]; cbn [shows init val] in *;
      repeat match goal with H : _ /\ _ |- _ => destruct H end; subst; repeat split.
  Qed.

  Lemma null_compare_correct_lemma o v : shows o v ->
    eq_null o = option_eq eqb v None /\ null_eq o = option_eq eqb None v /\
    neq_null o = negb (option_eq eqb v None) /\ null_neq o = negb (option_eq eqb None v) /\
    lt_null o = option_less less v None /\ null_lt o = option_less less None v /\
    gt_null o = option_less less None v /\ null_gt o = option_less less v None /\
    le_null o = negb (option_less less None v) /\ null_le o = negb (option_less less v None) /\
    ge_null o = negb (option_less less v None) /\ null_ge o = negb (option_less less None v).
  Proof.
    intros H. destruct o as [i x], v as [a|]; cbn [shows init val] in *;
      repeat match goal with H : _ /\ _ |- _ => destruct H end; subst; repeat split.
  Qed.
End Optional.

Lemma option_less_order_lemma A (less : A -> A -> bool) : strict_weak_order less -> strict_weak_order (option_less less).
Proof.
  intros (I & T & E). split; [|split].
  - intros [x|]; cbn; auto.
  - intros [x|] [y|] [z|]; cbn; intros; try congruence; try reflexivity. eapply T; eassumption.
  - intros [x|] [y|] [z|]; unfold equivalent; cbn; intros; intuition try congruence; try (eapply E; unfold equivalent; eauto; fail).
Qed.

(** ** variant *)
Section Var.
  Context {V : Type}.
  Variable types : list nat.

  Lemma find_index_spec : forall l t, In t l -> find_index l t < length l /\ nth (find_index l t) l 0 = t /\
    forall j, j < find_index l t -> nth j l 0 <> t.
  Proof.
    induction l as [|u l IH]; intros t H; [destruct H|]. cbn [find_index]. destruct (Nat.eqb_spec u t) as [->|Ne].
    - cbn. repeat split; [lia|]. intros j Hj. lia.
    - destruct H as [->|H]; [congruence|]. destruct (IH t H) as (L & E & F). cbn [length nth]. repeat split; [lia|assumption|].
      intros [|j] Hj; [assumption|]. apply F. lia.
  Qed.

  Lemma find_index_none : forall l t, ~ In t l -> find_index l t = length l.
  Proof.
    induction l as [|u l IH]; intros t H; [reflexivity|]. cbn [find_index length]. destruct (Nat.eqb_spec u t) as [->|Ne].
    - exfalso. apply H. now left.
    - rewrite IH; [reflexivity|]. intros K. apply H. now right.
  Qed.

  Lemma var_of_correct_lemma (dflt : nat -> V) t a :
    (In t types -> exists x i, var_of types dflt t a = Some x /\ stores types x i a /\
       nth i types 0 = t /\ forall j, j < i -> nth j types 0 <> t) /\
    (~ In t types -> var_of types dflt t a = None).
  Proof.
    split; intros H; unfold var_of.
    - destruct (find_index_spec types t H) as (L & E & F). destruct (Nat.ltb_spec (find_index types t) (length types)); [|lia].
      eexists. exists (find_index types t). split; [reflexivity|]. unfold stores. cbn [tuple_ which_]. repeat split; try assumption.
      + rewrite app_length. cbn [length]. rewrite !map_length, firstn_length, skipn_length. lia.
      + rewrite nth_error_app2; rewrite map_length, firstn_length, Nat.min_l by lia; [|lia]. now rewrite Nat.sub_diag.
    - rewrite find_index_none by assumption. now rewrite Nat.ltb_irrefl.
  Qed.

  Lemma visit_ok R (v : nat -> V -> R) l which a : nth_error l which = Some a -> forall n i, i <= which <= i + n ->
    visit types l v which i n = Ok (v (nth which types 0) a).
  Proof.
    intros H. induction n as [|n IH]; intros i L; cbn [visit].
    - replace i with which by lia. now rewrite (rd_ok _ _ _ H).
    - destruct (Nat.eqb_spec i which) as [->|Ne]; [now rewrite (rd_ok _ _ _ H)|]. apply IH. lia.
  Qed.

  Lemma apply_visitor_correct_lemma R (v : nat -> V -> R) x i a : stores types x i a ->
    apply_visitor types x v = Ok (v (nth i types 0) a).
  Proof.
    intros (_ & <- & E & L). unfold apply_visitor. destruct (Nat.ltb_spec (which_ x) (length types)); [|lia].
    apply visit_ok; [assumption|lia].
  Qed.

  Lemma find_index_first : forall l i t, i < length l -> nth i l 0 = t -> (forall j, j < i -> nth j l 0 <> t) -> find_index l t = i.
  Proof.
    induction l as [|u l IH]; intros i t L E F; [cbn in L; lia|]. cbn [find_index]. destruct i as [|i].
    - cbn in E. subst. now rewrite Nat.eqb_refl.
    - destruct (Nat.eqb_spec u t) as [->|Ne]; [exfalso; apply (F 0); [lia|reflexivity]|]. f_equal. apply IH; [cbn in L; lia|exact E|].
      intros j Hj. apply (F (S j)). lia.
  Qed.

  Lemma find_index_nth : forall l i t, i < length l -> find_index l t = i -> nth i l 0 = t.
  Proof.
    induction l as [|u l IH]; intros i t L E; [cbn in L; lia|]. cbn [find_index] in E. destruct (Nat.eqb_spec u t) as [->|Ne]; subst i; [reflexivity|].
    cbn [nth]. apply IH; [cbn in L; lia|reflexivity].
  Qed.

  Lemma var_get_correct_lemma (x : variant V) i a t : stores types x i a ->
    (nth i types 0 = t -> (forall j, j < i -> nth j types 0 <> t) -> var_get types x t = Ok a) /\
    (nth i types 0 <> t -> var_get types x t = UB).
  Proof.
    intros (_ & W & E & L). unfold var_get. rewrite W. split.
    - intros T F. rewrite (find_index_first _ _ _ L T F), Nat.eqb_refl. now apply rd_ok.
    - intros T. destruct (Nat.eqb_spec (find_index types t) i) as [K|]; [|reflexivity]. exfalso. apply T. now apply find_index_nth.
  Qed.

  Lemma compare_at_ok (f : nat -> V -> V -> bool) l r which a b : nth_error l which = Some a -> nth_error r which = Some b -> forall n i, i <= which < i + n ->
    compare_at types f l r which i n = Ok (f (nth which types 0) a b).
  Proof.
    intros H K. induction n as [|n IH]; intros i L; [lia|]. cbn [compare_at].
    destruct (Nat.eqb_spec i which) as [->|Ne]; [now rewrite (rd_ok _ _ _ H), (rd_ok _ _ _ K)|]. apply IH. lia.
  Qed.

  Lemma var_compare_correct_lemma (eqb less : nat -> V -> V -> bool) x y i j a b : stores types x i a -> stores types y j b ->
    let eq := (i =? j) && eqb (nth i types 0) a b in
    let lt := (i <? j) || ((i =? j) && less (nth i types 0) a b) in
    let gt := (j <? i) || ((i =? j) && less (nth i types 0) b a) in
    var_eq types eqb x y = Ok eq /\ var_neq types eqb x y = Ok (negb eq) /\
    var_lt types less x y = Ok lt /\ var_gt types less x y = Ok gt /\
    var_le types less x y = Ok (negb gt) /\ var_ge types less x y = Ok (negb lt).
  Proof.
    intros (_ & W & E & L) (_ & W' & E' & L'). cbv zeta.
    assert (EQ : var_eq types eqb x y = Ok ((i =? j) && eqb (nth i types 0) a b)).
    { unfold var_eq. rewrite W, W'. destruct (Nat.eqb_spec i j) as [<-|Ne]; [|reflexivity].
      cbn [andb]. apply compare_at_ok; (assumption || lia). }
    assert (LT : var_lt types less x y = Ok ((i <? j) || ((i =? j) && less (nth i types 0) a b))).
    { unfold var_lt. rewrite W, W'. destruct (Nat.ltb_spec i j); [reflexivity|].
      destruct (Nat.eqb_spec i j) as [<-|Ne]; [|reflexivity].
      cbn [andb orb]. apply compare_at_ok; (assumption || lia). }
    assert (GT : var_lt types less y x = Ok ((j <? i) || ((i =? j) && less (nth i types 0) b a))).
    { unfold var_lt. rewrite W, W'. destruct (Nat.ltb_spec j i); [reflexivity|].
      rewrite Nat.eqb_sym. destruct (Nat.eqb_spec i j) as [<-|Ne]; [|reflexivity].
      cbn [andb orb]. apply compare_at_ok; (assumption || lia). }
    unfold var_neq, var_gt, var_le, var_ge. rewrite EQ, LT, GT. repeat split.
  Qed.

  Lemma var_swap_correct_lemma (x y : variant V) i j a b : stores types x i a -> stores types y j b ->
    stores types (fst (var_swap x y)) j b /\ stores types (snd (var_swap x y)) i a.
  Proof. now destruct x, y. Qed.
End Var.

Lemma var_default_correct_lemma V t ts (dflt : nat -> V) : stores (t :: ts) (var_default (t :: ts) dflt) 0 (dflt t).
Proof. unfold stores, var_default. cbn. rewrite map_length. repeat split. lia. Qed.

Lemma alternatives_order_lemma V (types : list nat) (less : nat -> V -> V -> bool) :
  (forall t, strict_weak_order (less t)) ->
  strict_weak_order (fun p q : nat * V => (fst p <? fst q) || ((fst p =? fst q) && less (nth (fst p) types 0) (snd p) (snd q))).
Proof.
  intros H. split; [|split].
  - intros [i a]. cbn [fst snd]. rewrite Nat.ltb_irrefl, Nat.eqb_refl. cbn [orb andb]. apply H.
  - intros [i a] [j b] [k c]. cbn [fst snd].
    destruct (Nat.ltb_spec i j), (Nat.eqb_spec i j), (Nat.ltb_spec j k), (Nat.eqb_spec j k), (Nat.ltb_spec i k), (Nat.eqb_spec i k);
      try lia; cbn [orb andb]; intros P Q; try congruence; try reflexivity. subst. eapply (H (nth k types 0)); eassumption.
  - intros [i a] [j b] [k c]. unfold equivalent. cbn [fst snd].
    destruct (Nat.ltb_spec i j), (Nat.ltb_spec j i), (Nat.eqb_spec i j), (Nat.eqb_spec j i); try lia;
      destruct (Nat.ltb_spec j k), (Nat.ltb_spec k j), (Nat.eqb_spec j k), (Nat.eqb_spec k j); try lia;
      cbn [orb andb]; intros P Q; try (destruct P; congruence); try (destruct Q; congruence). subst.
    rewrite Nat.ltb_irrefl, Nat.eqb_refl. cbn [orb andb]. eapply (H (nth k types 0)); unfold equivalent; eassumption.
Qed.
