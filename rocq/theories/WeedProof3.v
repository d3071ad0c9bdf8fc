(** The main theorem about WeedModel.v, and the programs for which it fails. *)
From Coq Require Import List Arith ZArith Bool Lia ZifyBool ZifyNat.
From Verif Require Import Base BaseProof BitModel BitSpec BitProof WordModel WeedModel WeedSpec WeedProof WeedProof2.
Import ListNotations.
Open Scope nat_scope.

Lemma times_of_unused e : limit_of e = None -> times_of e (ty_of e) <> TOther -> ty_of e = TUnused.
Proof. unfold times_of. intros ->. destruct (ty_of e); congruence. Qed.
Lemma times_of_lim e n cat : limit_of e = Some (n, cat) -> times_of e (ty_of e) = times_ty (ty_of e).
Proof. unfold times_of. now intros ->. Qed.
Lemma times_of_sub e : times_of e (ty_of e) <> TOther -> ty_of e <> TOther.
Proof. unfold times_of. destruct (limit_of e) as [[n cat]|]; destruct (ty_of e); cbn; congruence. Qed.
Lemma default_times_ok e : times_of e (ty_of e) <> TOther ->
  typed (default_attr (times_of e (ty_of e))) (times_of e (ty_of e)) /\ items (default_attr (times_of e (ty_of e))) = [].
Proof.
  unfold times_of. destruct (limit_of e) as [[n cat]|].
  - destruct (ty_of e) as [|[| | |]|l|]; cbn; try congruence; auto.
  - destruct (ty_of e); cbn; try congruence; auto.
Qed.

(** the relation between attributes and yields *)
Definition fits (e : pexp) (a : attr) (y : list item) : Prop :=
  ty_of e <> TOther -> no_str e = true -> typed a (ty_of e) /\ items a = y.

Section Main.
  Variable s : list Z.
  Variables d k : nat.
  Variable int_digits : ity -> Z -> Z.
  Notation len := (length s).
  Hypothesis Hk : len < k.

  Lemma unused_nil e ys : ty_of e = TUnused -> no_str e = true -> Forall (fun y => exists a, fits e a y) ys -> concat ys = [].
  Proof.
    clear. intros T N H. induction H as [|y ys (a&F) H IH]; [easy|]. cbn. rewrite IH.
    destruct F as [F1 F2]; [congruence|easy|]. rewrite T in F1. destruct a; cbn in F1; try contradiction. cbn in F2. now subst y.
  Qed.
  Lemma fits_times e n cat ats ys : limit_of e = Some (n, cat) -> times_of e (ty_of e) <> TOther -> no_str e = true ->
    Forall2 (fits e) ats ys ->
    typed (times_attr (ty_of e) ats) (times_of e (ty_of e)) /\ items (times_attr (ty_of e) ats) = concat ys.
  Proof.
    clear. intros L T N H. pose proof (times_of_sub e T). rewrite (times_of_lim e n cat L) in *.
    apply times_attr_ok; [easy|]. induction H as [|a y ats ys F H IH]; constructor; auto.
  Qed.
  Lemma kept_lim e n cat ys : limit_of e = Some (n, cat) -> kept e ys = keep n cat ys.
  Proof. clear. destruct e; cbn; try discriminate. intros H. injection H as -> ->. now destruct cat. Qed.
  Lemma most_lim e n cat : limit_of e = Some (n, cat) -> most e = match cat with Stopover => Some n | _ => None end.
  Proof. clear. destruct e; cbn; try discriminate. intros H. injection H as -> ->. now destruct cat. Qed.
  Lemma kept_none e ys : limit_of e = None -> kept e ys = ys.
  Proof. clear. destruct e; cbn; congruence. Qed.
  Lemma most_none e : limit_of e = None -> most e = None.
  Proof. clear. destruct e; cbn; congruence. Qed.
  Lemma lim_ok_lim e n cat : limit_of e = Some (n, cat) -> lim_ok e -> 1 <= n /\ (cat = Stopover -> 2 <= n).
  Proof. clear. destruct e; cbn; try discriminate. intros H. injection H as -> ->. destruct cat; intros L; split; try lia; discriminate. Qed.

  (** The operand of a repetition *)
  Lemma repeat_good (none : bool) e (W : Prop) i :
    (forall i, i <= len -> good s (peg s e) (fits e) W false i (eval s d k int_digits e i)) -> lim_ok e -> i <= len ->
    good s (peg s (if none then EStar e else EPlus e)) (fits (EPlus e)) W none i
      (repeat_eval k none (eval s d k int_digits e) (limit_of e) (ty_of e) (times_of e (ty_of e)) i).
  Proof.
    intros He Hl Hi. unfold repeat_eval.
    destruct (ev_cases s _ _ _ _ He i Hi) as [(r&E&C&H)|[E HW]]; rewrite E; cbn [bind]; [|exact HW].
    assert (FAIL : most e <> Some 0 -> ok r = false -> peg s e i None -> good s (peg s (if none then EStar e else EPlus e)) (fits (EPlus e)) W none i
       (Ok (ER none i (default_attr (times_of e (ty_of e))) i))).
    { intros M0 O Pn. cbn. split; [easy|]. destruct none.
      - split; [lia|]. split; [lia|]. exists []. split.
        + exists [], i. split; [now apply reps_end|]. unfold kept. destruct e; cbn; try reflexivity. destruct cat; cbn; rewrite ?firstn_nil, ?skipn_nil; reflexivity.
        + intros T _. apply default_times_ok. exact T.
      - split; [easy|]. right. auto. }
    destruct (limit_of e) as [[n cat]|] eqn:EL.
    - destruct (lim_ok_lim e n cat EL Hl) as [Hn Hst].
      destruct H as [(O&B&y&Py&Ay)|(O&B&Pn)]; rewrite O.
      + rewrite C. destruct (ev_cases s _ _ _ _ He (cur r)) as [(r'&E'&_)|[E' HW]]; [lia| |]; rewrite E'; cbn [bind]; [|exact HW].
        pose proof (call_lim_ok s _ _ _ _ He n (ty_of e) cat Hn k (cur r) r' [at_ r] E' ltac:(lia) ltac:(lia) ltac:(cbn; lia)
          ltac:(intros X; specialize (Hst X); cbn; lia)) as G.
        destruct (call_lim k _ n _ cat (cur r) r' [at_ r]) as [q| |]; [|exact G|exact G].
        destruct G as (G1&G2&G3&ats&ys&G4&G5&G6). unfold good. rewrite G1. split; [easy|]. split; [destruct none; lia|]. split; [lia|].
        exists (concat (kept e (y :: ys))). split.
        * assert (R : reps (peg s e) (most e) i (y :: ys) (cur q)).
          { rewrite (most_lim e n cat EL). eapply reps_more; [|exact Py|].
            - destruct cat; try discriminate. specialize (Hst eq_refl). intros X. injection X. lia.
            - destruct cat; [exact G4|exact G4|]. cbn [option_map]. cbn [length] in G4. now replace (pred n) with (n - 1) by lia. }
          destruct none; cbn [peg]; [exists (y :: ys), (cur q); auto|left; exists (y :: ys), (cur q); repeat split; auto; discriminate].
        * intros T N. rewrite G6, (kept_lim e n cat _ EL). cbn [ty_of]. apply (fits_times e n cat); auto. apply keep_Forall2.
          now constructor.
      + apply FAIL; auto. rewrite (most_lim e n cat EL). destruct cat; try discriminate. specialize (Hst eq_refl). intros X. injection X. lia.
    - destruct H as [(O&B&y&Py&Ay)|(O&B&Pn)]; rewrite O; [|apply FAIL; auto; rewrite most_none by exact EL; discriminate].
      rewrite C. destruct (ev_cases s _ _ _ _ He (cur r)) as [(r'&E'&_)|[E' HW]]; [lia| |]; rewrite E'; cbn [bind]; [|exact HW].
      pose proof (call_inf_ok s _ _ _ _ He k (cur r) r' E' ltac:(lia) ltac:(lia)) as G.
      destruct (call_inf k _ (cur r) r') as [q| |]; [|exact G|exact G].
      destruct G as (G1&G2&G3&G4&ys&G5&G6). unfold good. rewrite G1. split; [easy|]. split; [destruct none; lia|]. split; [lia|].
      exists (concat (y :: ys)). split.
      + assert (R : reps (peg s e) (most e) i (y :: ys) (cur q)).
        { rewrite most_none by exact EL. eapply reps_more; [discriminate|exact Py|exact G5]. }
        rewrite <- (kept_none e (y :: ys) EL). destruct none; cbn [peg];
          [exists (y :: ys), (cur q); auto|left; exists (y :: ys), (cur q); repeat split; auto; discriminate].
      + intros T N. cbn [ty_of no_str] in *. pose proof (times_of_unused e EL T) as U. rewrite G3, (unused_nil e (y :: ys) U N) by (constructor; eauto).
        unfold times_of. rewrite EL, U. cbn. auto.
  Qed.

  Lemma g_cases P (A : attr -> list item -> Prop) (W : Prop) nul i (x : res eres) : good s P A W nul i x ->
    (exists r, x = Ok r /\ cx r = cur r /\
       ((ok r = true /\ i <= cur r <= len /\ (nul = false -> i < cur r) /\ exists y, P i (Some (cur r, y)) /\ A (at_ r) y) \/
        (ok r = false /\ cur r = i /\ P i None))) \/ (x = UB /\ W).
  Proof.
    clear. intros G. unfold good in G. destruct x as [r| |]; [|auto|contradiction].
    left. exists r. split; [easy|]. destruct G as [G1 G2]. split; [easy|]. destruct (ok r); [left|right; tauto].
    destruct nul; intuition (try lia; try discriminate).
  Qed.

  Lemma mod_good e f (W : Prop) n2 i :
    (forall i, i <= len -> good s (peg s e) (fits e) W (nullable e) i (eval s d k int_digits e i)) ->
    (forall i, i <= len -> good s (peg s f) (fits f) W n2 i (eval s d k int_digits f i)) ->
    nullable e && n2 = false -> lim_ok e -> i <= len ->
    good s (peg s (EMod e f)) (fits (EMod e f)) W (nullable e) i
      (mod_eval k (eval s d k int_digits e) (eval s d k int_digits f) (limit_of e) (ty_of e) (times_of e (ty_of e)) i).
  Proof.
    intros He Hf Hnul Hl Hi. unfold mod_eval.
    destruct (g_cases _ _ _ _ _ _ (He i Hi)) as [(r&E&C&H)|[E HW]]; rewrite E; cbn [bind]; [|exact HW].
    assert (FAIL : peg s e i None -> good s (peg s (EMod e f)) (fits (EMod e f)) W (nullable e) i
       (Ok (ER false i (default_attr (times_of e (ty_of e))) i))).
    { intros Pn. cbn. split; [easy|]. split; [easy|]. right. auto. }
    assert (LT : forall a b, (nullable e = false -> i < a) -> i <= a -> a <= b -> if nullable e then i <= b else i < b).
    { intros a b X1 X2 X3. destruct (nullable e); [lia|]. specialize (X1 eq_refl). lia. }
    destruct (limit_of e) as [[n cat]|] eqn:EL.
    - destruct (lim_ok_lim e n cat EL Hl) as [Hn Hst].
      destruct H as [(O&B&B'&y&Py&Ay)|(O&B&Pn)]; rewrite O; [|apply FAIL; auto].
      rewrite C. destruct (g_cases _ _ _ _ _ _ (Hf (cur r) ltac:(lia))) as [(r'&E'&_)|[E' HW]]; rewrite E'; cbn [bind]; [|exact HW].
      pose proof (mod_lim_ok s _ _ _ _ _ _ _ _ _ He Hf Hnul n (ty_of e) cat Hn k (cur r) r' [at_ r] E' ltac:(lia) ltac:(lia) ltac:(cbn; lia)
          ltac:(intros X; specialize (Hst X); cbn; lia)) as G.
      destruct (mod_lim_1 k _ _ n _ cat (cur r) r' [at_ r]) as [q| |]; [|exact G|exact G].
      destruct G as (G1&G2&G3&ats&ys&G4&G5&G6). unfold good. rewrite G1. split; [easy|]. split; [apply (LT (cur r)); auto; lia|]. split; [lia|].
      exists (concat (kept e (y :: ys))). split.
      + cbn [peg]. left. exists (cur r), y, ys, (cur q). split; [exact Py|]. split; [|easy].
        rewrite (most_lim e n cat EL). destruct cat; [exact G4|exact G4|]. cbn [option_map length] in *. now replace (pred n) with (n - 1) by lia.
      + intros T N. rewrite G6, (kept_lim e n cat _ EL). cbn [ty_of]. apply (fits_times e n cat); auto. apply keep_Forall2. now constructor.
    - destruct H as [(O&B&B'&y&Py&Ay)|(O&B&Pn)]; rewrite O; [|apply FAIL; auto].
      rewrite C. destruct (g_cases _ _ _ _ _ _ (Hf (cur r) ltac:(lia))) as [(r'&E'&_)|[E' HW]]; rewrite E'; cbn [bind]; [|exact HW].
      pose proof (mod_inf_ok s _ _ _ _ _ _ _ _ _ He Hf Hnul k (cur r) r' E' ltac:(lia) ltac:(lia)) as G.
      destruct (mod_inf_1 k _ _ (cur r) r') as [q| |]; [|exact G|exact G].
      destruct G as (G1&G2&G3&G4&ys&G5&G6). unfold good. rewrite G1. split; [easy|]. split; [apply (LT (cur r)); auto; lia|]. split; [lia|].
      exists (concat (y :: ys)). split.
      + cbn [peg]. left. exists (cur r), y, ys, (cur q). rewrite kept_none, most_none by exact EL. auto.
      + intros T N. cbn [ty_of no_str] in *. pose proof (times_of_unused e EL T) as U. rewrite G3, (unused_nil e (y :: ys) U N) by (constructor; eauto).
        unfold times_of. rewrite EL, U. cbn. auto.
  Qed.

  Lemma rep_good count e (W : Prop) i :
    (forall i, i <= len -> good s (peg s e) (fits e) W false i (eval s d k int_digits e i)) -> repeat_ok count e -> i <= len ->
    good s (peg s (ERepeat count e)) (fits (ERepeat count e)) W (match count with Some c => c =? 0 | None => true end) i
      (rep_eval k (eval s d k int_digits e) count (limit_of e) (ty_of e) (times_of e (ty_of e)) i).
  Proof.
    intros He Hl Hi. destruct count as [c|]; [|contradiction]. unfold rep_eval.
    destruct (ev_cases s _ _ _ _ He i Hi) as [(r&E&C&H)|[E HW]]; rewrite E; cbn [bind]; [|exact HW].
    assert (BE : match e with ELim n _ _ => Some n | _ => None end = option_map fst (limit_of e)) by (destruct e; reflexivity).
    assert (RK : match limit_of e with Some (n, _) => 2 <= n /\ (c = 0 \/ c = n) | None => c = 0 end) by (destruct e; exact Hl).
    cbn [count_le]. destruct (limit_of e) as [[n cat]|] eqn:EL; cbn [option_map fst] in BE.
    - destruct RK as [Hn Hc]. destruct H as [(O&B&y&Py&Ay)|(O&B&Pn)]; rewrite O.
      + rewrite C. destruct (ev_cases s _ _ _ _ He (cur r)) as [(r'&E'&_)|[E' HW]]; [lia| |]; rewrite E'; cbn [bind]; [|exact HW].
        replace (if c <=? 0 then cur r else i) with (if c =? 0 then cur r else i) by (destruct c; reflexivity).
        pose proof (rep_lim_ok s _ _ _ _ He c n (ty_of e) (times_of e (ty_of e)) i Hc k (cur r) r' [at_ r] E' ltac:(lia) ltac:(lia) ltac:(cbn; lia)) as G.
        destruct (rep_lim _ _ _ _ _ _ _ _ _) as [q| |]; [|exact G|exact G]. cbn [length] in G.
        destruct G as (G1&ats&ys&j&G2&G3&G4&G5). unfold good. split; [easy|].
        assert (R : reps (peg s e) (Some n) i (y :: ys) j).
        { eapply reps_more; [intros X; injection X; lia|exact Py|]. cbn [option_map]. now replace (pred n) with (n - 1) by lia. }
        destruct (ok q).
        * destruct G5 as (G5&G6&G7). split; [destruct (c =? 0); lia|]. split; [lia|]. exists (concat (y :: ys)). split.
          -- cbn [peg]. rewrite BE. exists (y :: ys), j. split; [exact R|]. cbn [length]. destruct (Nat.leb_spec c (S (length ys))); [|lia]. now rewrite G6.
          -- intros T N. rewrite G7. cbn [app]. apply (fits_times e n cat (at_ r :: ats) (y :: ys)); auto.
        * destruct G5 as (G5&G6). split; [easy|]. cbn [peg]. rewrite BE. exists (y :: ys), j. split; [exact R|]. cbn [length].
          destruct (Nat.leb_spec c (S (length ys))); [lia|easy].
      + unfold presult, good. cbn [ok cx cur at_]. split; [easy|].
        assert (R : reps (peg s e) (Some n) i [] i) by (apply reps_end; [intros X; injection X; lia|exact Pn]).
        destruct (Nat.leb_spec c 0) as [L|L].
        * assert (c = 0) by lia. subst c. cbn [Nat.eqb]. split; [lia|]. split; [lia|]. exists []. split.
          -- cbn [peg]. rewrite BE. exists [], i. auto.
          -- intros T N. now apply default_times_ok.
        * split; [easy|]. cbn [peg]. rewrite BE. exists [], i. split; [exact R|]. cbn [length]. destruct (Nat.leb_spec c 0); [lia|easy].
    - subst c. cbn [Nat.leb orb]. destruct H as [(O&B&y&Py&Ay)|(O&B&Pn)]; rewrite O.
      + rewrite C. destruct (ev_cases s _ _ _ _ He (cur r)) as [(r'&E'&_)|[E' HW]]; [lia| |]; rewrite E'; cbn [bind]; [|exact HW].
        pose proof (rep_inf_ok s _ _ _ _ He k 1 (cur r) r' E' ltac:(lia) ltac:(lia)) as G.
        destruct (rep_inf _ _ _ _ _ _) as [q| |]; [|exact G|exact G].
        destruct G as (G1&G2&G3&G4&ys&G5&G6). unfold good. rewrite G1. split; [easy|]. split; [cbn [Nat.eqb]; lia|]. split; [lia|].
        exists (concat (y :: ys)). split.
        * cbn [peg]. rewrite BE. exists (y :: ys), (cur q). split; [|easy]. eapply reps_more; [discriminate|exact Py|exact G5].
        * intros T N. cbn [ty_of no_str] in *. pose proof (times_of_unused e EL T) as U. rewrite G3, (unused_nil e (y :: ys) U N) by (constructor; eauto).
          unfold times_of. rewrite EL, U. cbn. auto.
      + unfold presult, good. cbn [ok cx cur at_ Nat.eqb]. split; [easy|]. split; [lia|]. split; [lia|]. exists []. split.
        * cbn [peg]. rewrite BE. exists [], i. split; [apply reps_end; [discriminate|exact Pn]|easy].
        * intros T N. now apply default_times_ok.
  Qed.

  Lemma good_weaken P (A : attr -> list item -> Prop) (W W' : Prop) nul i x : (W -> W') -> good s P A W nul i x -> good s P A W' nul i x.
  Proof. clear. intros HW. destruct x; cbn; auto. Qed.
  Lemma good_nul P (A : attr -> list item -> Prop) (W : Prop) i x : good s P A W false i x -> good s P A W true i x.
  Proof. clear. destruct x as [r| |]; cbn; auto. destruct (ok r); intuition lia. Qed.

  Lemma log2_max a b : Nat.log2_up (Nat.max a b) < d -> Nat.log2_up a < d /\ Nat.log2_up b < d.
  Proof.
    clear. intros H. pose proof (Nat.log2_up_le_mono a (Nat.max a b) ltac:(lia)). pose proof (Nat.log2_up_le_mono b (Nat.max a b) ltac:(lia)). lia.
  Qed.

  Ltac use H i Hi :=
    let r := fresh "r" in let E := fresh "E" in let C := fresh "C" in let HW := fresh "HW" in let G := fresh "G" in
    destruct (g_cases _ _ _ _ _ _ (H i Hi)) as [(r&E&C&G)|[E HW]]; rewrite E; cbn [bind].

  Theorem eval_good e : wf int_digits e -> Nat.log2_up (set_size e) < d -> forall i, i <= len ->
    good s (peg s e) (fits e) (wide_int e = true) (nullable e) i (eval s d k int_digits e i).
  Proof.
    induction e as [p|c|t|e IHe f IHf|e IHe f IHf|e IHe|e IHe|e IHe f IHf|e IHe|e IHe|e IHe f IHf|e IHe|g e IHe|n cat e IHe|count e IHe|e IHe|v e IHe|e IHe];
      intros Hw Hd i Hi.
    - apply prim_good; auto. intros a y [(H1&H2&H3)|H] T N; auto; congruence.
    - pose proof (one_ok s int_digits (fun c' => Ok (c' =? c)%Z) (fun c' => c' = c) (fun _ => AUnused) (fun _ => []) AUnused (fits (XChar c)) (wide_int (XChar c) = true) i
        (fun c' => ex_intro _ _ (conj eq_refl (Z.eqb_eq c' c))) (fun _ _ _ => conj I eq_refl) Hi) as G.
      unfold one in G. cbn [eval]. destruct (negb (i =? len)); [|exact G]. destruct (rd s i) as [c'| |]; cbn [bind] in *; [|exact G|exact G].
      destruct (c' =? c)%Z; exact G.
    - assert (F : fits (XStr t) AUnused []) by (intros _ _; cbn; auto).
      pose proof (text_good s int_digits t [] AUnused AUnused (fits (XStr t)) (wide_int (XStr t) = true) i F Hi) as G.
      cbn [eval nullable]. destruct (text s t i); exact G.
    - cbn in Hw, Hd. destruct Hw as [W1 W2]. destruct (log2_max _ _ Hd) as [D1 D2]. cbn [eval wide_int nullable].
      use (IHe W1 D1) i Hi; [|cbn; now rewrite HW].
      destruct G as [(O&B&B'&y&Py&Ay)|(O&B&Pn)]; rewrite O.
      + assert (Hr : cur r <= len) by lia. use (IHf W2 D2) (cur r) Hr; [|cbn; rewrite HW; apply orb_true_r].
        destruct G as [(Oq&M&M'&z&Pz&Az)|(Oq&M&Pm)]; rewrite Oq; cbn.
        * split; [easy|]. split; [destruct (nullable e), (nullable f); cbn; intuition lia|]. split; [lia|]. exists (y ++ z). split.
          -- left. exists (cur r), y, (cur r0), z. auto.
          -- intros T N. cbn in T, N. apply andb_prop in N. destruct N as [N1 N2].
             assert (T1 : ty_of e <> TOther) by (intros X; rewrite X in T; now apply T).
             assert (T2 : ty_of f <> TOther) by (intros X; rewrite X in T; destruct (ty_of e); now apply T).
             destruct (Ay T1 N1) as [X1 X2]. destruct (Az T2 N2) as [Y1 Y2].
             destruct (seq_attr_ok _ _ _ _ X1 Y1 T) as [Z1 Z2]. split; [exact Z1|]. now rewrite Z2, X2, Y2.
        * split; [easy|]. split; [easy|]. right. left. exists (cur r), y. rewrite M in *. auto.
      + cbn. split; [easy|]. split; [easy|]. right. right. auto.
    - cbn in Hw, Hd. destruct Hw as [W1 W2]. destruct (log2_max _ _ Hd) as [D1 D2]. cbn [eval wide_int nullable].
      assert (ALT : forall a y, ty_of (EAlt e f) <> TOther -> typed a (ty_of e) /\ items a = y \/ typed a (ty_of f) /\ items a = y ->
         typed (alt_attr (ty_of e) (ty_of f) a) (ty_of (EAlt e f)) /\ items (alt_attr (ty_of e) (ty_of f) a) = y).
      { intros a y T H. cbn in T |- *. destruct (alt_attr_ok a (ty_of e) (ty_of f) T) as [X1 X2]; [tauto|]. split; [exact X1|]. rewrite X2. tauto. }
      assert (SUB : ty_of (EAlt e f) <> TOther -> ty_of e <> TOther /\ ty_of f <> TOther).
      { cbn. destruct (ty_of e) as [|[| | |]| |]; destruct (ty_of f) as [|[| | |]| |]; cbn; intros; split; congruence. }
      use (IHe W1 D1) i Hi; [|cbn; now rewrite HW].
      destruct G as [(O&B&B'&y&Py&Ay)|(O&B&Pn)]; rewrite O.
      + cbn. split; [easy|]. split; [destruct (nullable e), (nullable f); cbn; intuition lia|]. split; [lia|]. exists y. split; [eauto|].
        intros T N. cbn [no_str] in N. apply andb_prop in N. destruct (SUB T). apply ALT; [easy|]. left. apply Ay; tauto.
      + use (IHf W2 D2) i Hi; [|cbn; rewrite HW; apply orb_true_r].
        destruct G as [(Oq&M&M'&z&Pz&Az)|(Oq&M&Pm)]; rewrite Oq; cbn.
        * split; [easy|]. split; [destruct (nullable e), (nullable f); cbn; intuition lia|]. split; [lia|]. exists z. split; [eauto|].
          intros T N. cbn [no_str] in N. apply andb_prop in N. destruct (SUB T). apply ALT; [easy|]. right. apply Az; tauto.
        * auto.
    - cbn in Hw, Hd. destruct Hw as (W1&W2&W3). cbn [eval wide_int nullable]. rewrite W2.
      refine (repeat_good false e _ i _ W3 Hi). intros j Hj. rewrite <- W2. now apply IHe.
    - cbn in Hw, Hd. destruct Hw as (W1&W2&W3). cbn [eval wide_int nullable].
      refine (repeat_good true e _ i _ W3 Hi). intros j Hj. rewrite <- W2. now apply IHe.
    - cbn in Hw, Hd. destruct Hw as (W1&W2&W3&W4). destruct (log2_max _ _ Hd) as [D1 D2]. cbn [eval wide_int].
      refine (mod_good e f _ (nullable f) i _ _ W3 W4 Hi); intros j Hj.
      + eapply good_weaken; [|now apply IHe]. intros ->. reflexivity.
      + eapply good_weaken; [|now apply IHf]. intros ->. apply orb_true_r.
    - cbn in Hw, Hd. cbn [eval wide_int nullable]. use (IHe Hw Hd) i Hi; [|exact HW].
      destruct G as [(O&B&B'&y&Py&Ay)|(O&B&Pn)]; rewrite O; cbn.
      + split; [easy|]. split; [lia|]. split; [lia|]. exists []. split; [left; eauto|]. intros _ _. cbn. auto.
      + auto.
    - cbn in Hw, Hd. cbn [eval wide_int nullable]. use (IHe Hw Hd) i Hi; [|exact HW].
      destruct G as [(O&B&B'&y&Py&Ay)|(O&B&Pn)]; rewrite O; cbn.
      + split; [easy|]. split; [easy|]. left. eauto.
      + split; [easy|]. split; [lia|]. split; [lia|]. exists []. split; [right; eauto|]. intros _ _. cbn. auto.
    - cbn in Hw, Hd. destruct Hw as [W1 W2]. destruct (log2_max _ _ Hd) as [D1 D2]. cbn [eval wide_int nullable].
      use (IHe W1 D1) i Hi; [|cbn; now rewrite HW].
      destruct G as [(O&B&B'&y&Py&Ay)|(O&B&Pn)]; rewrite O.
      + use (IHf W2 D2) i Hi; [|cbn; rewrite HW; apply orb_true_r].
        destruct G as [(Oq&M&M'&z&Pz&Az)|(Oq&M&Pm)]; rewrite Oq; cbn.
        * split; [easy|]. split; [easy|]. right. left. eauto.
        * rewrite O. split; [easy|]. split; [destruct (nullable e); intuition lia|]. split; [lia|]. exists y. split; [left; eauto|exact Ay].
      + cbn. split; [easy|]. split; [easy|]. right. right. auto.
    - cbn in Hw, Hd. cbn [eval wide_int nullable]. use (IHe Hw Hd) i Hi; [|exact HW].
      destruct G as [(O&B&B'&y&Py&Ay)|(O&B&Pn)]; rewrite O; cbn.
      + split; [easy|]. split; [lia|]. split; [lia|]. exists y. split; [left; eauto|].
        intros T N. cbn in T, N |- *. destruct (ty_of e) eqn:U; try congruence.
        destruct Ay as [A1 A2]; [congruence|easy|]. rewrite U in A1. destruct (at_ r); cbn in A1; try contradiction. auto.
      + rewrite B. split; [easy|]. split; [lia|]. split; [lia|]. exists []. split; [right; auto|].
        intros T N. cbn in T |- *. destruct (ty_of e); try congruence. auto.
    - cbn in Hw, Hd. cbn [eval wide_int nullable]. use (IHe Hw Hd) i Hi; [|exact HW].
      destruct G as [(O&B&B'&y&Py&Ay)|(O&B&Pn)]; rewrite O; cbn; [|auto].
      split; [easy|]. split; [destruct (nullable e); intuition lia|]. split; [lia|]. exists y. split; [easy|]. intros T. cbn in T. congruence.
    - cbn in Hw, Hd. cbn [eval wide_int nullable]. use (IHe Hw Hd) i Hi; [|exact HW].
      destruct G as [(O&B&B'&y&Py&Ay)|(O&B&Pn)]; rewrite O; cbn; [|auto].
      split; [easy|]. split; [destruct (nullable e); intuition lia|]. split; [lia|]. exists y. split; [easy|]. exact Ay.
    - cbn in Hw, Hd. destruct Hw as (W1&W2&W3). cbn [eval wide_int nullable].
      assert (G : good s (peg s (ERepeat count e)) (fits (ERepeat count e)) (wide_int e = true) (match count with Some c => c =? 0 | None => true end) i
        (rep_eval k (eval s d k int_digits e) count (limit_of e) (ty_of e) (times_of e (ty_of e)) i)).
      { apply rep_good; auto. intros j Hj. rewrite <- W2. now apply IHe. }
      rewrite W2. destruct count; [rewrite orb_false_r|]; exact G.
    - cbn in Hw, Hd. cbn [eval wide_int nullable]. use (IHe Hw Hd) i Hi; [|exact HW].
      destruct G as [(O&B&B'&y&Py&Ay)|(O&B&Pn)]; rewrite O; cbn; [|auto].
      split; [easy|]. split; [destruct (nullable e); intuition lia|]. split; [lia|]. exists []. split; [left; eauto|]. intros _ _. cbn. auto.
    - cbn in Hw, Hd. cbn [eval wide_int nullable]. use (IHe Hw Hd) i Hi; [|exact HW].
      destruct G as [(O&B&B'&y&Py&Ay)|(O&B&Pn)]; rewrite O; cbn; [|auto].
      split; [easy|]. split; [destruct (nullable e); intuition lia|]. split; [lia|]. exists (val_items v). split; [left; eauto|]. intros _ _. cbn. auto.
    - cbn in Hw, Hd. cbn [eval wide_int nullable]. use (IHe Hw Hd) i Hi; [|exact HW].
      destruct G as [(O&B&B'&y&Py&Ay)|(O&B&Pn)]; rewrite O; cbn; [|auto].
      split; [easy|]. split; [destruct (nullable e); intuition lia|]. split; [lia|]. exists y. split; [easy|].
      intros T N. cbn in T, N |- *. destruct (ty_of e) eqn:U; try congruence.
      destruct Ay as [A1 A2]; [congruence|easy|]. rewrite U in A1. destruct (at_ r); cbn in A1; try contradiction. cbn. subst b. rewrite app_nil_r. auto.
  Qed.
End Main.

(** * The results *)
Lemma weed_matches_lemma s d k e i : wf word_digits e -> Nat.log2_up (set_size e) < d -> length s < k -> i <= length s ->
  match eval s d k word_digits e i with
  | Ok r => cx r = cur r /\ i <= cur r <= length s /\
      exists o, peg s e i o /\ (forall o', peg s e i o' -> o' = o) /\
        match o with Some (j, _) => ok r = true /\ cur r = j | None => ok r = false /\ cur r = i end
  | UB => wide_int e = true
  | Fuel => False
  end.
Proof.
  intros Hw Hd Hk Hi. pose proof (eval_good s d k word_digits Hk e Hw Hd i Hi) as G. unfold good in G.
  destruct (eval s d k word_digits e i) as [r| |]; [|exact G|exact G]. destruct G as [G1 G2]. split; [easy|].
  destruct (ok r) eqn:O.
  - destruct G2 as (G2&G3&y&G4&_). split; [destruct (nullable e); lia|]. exists (Some (cur r, y)). split; [easy|]. split; [|auto].
    intros o' H. exact (peg_det s e i o' _ H G4).
  - destruct G2 as (G2&G3). split; [lia|]. exists None. split; [easy|]. split; [|auto]. intros o' H. exact (peg_det s e i o' _ H G3).
Qed.
Lemma weed_attributes_lemma s d k e i r : wf word_digits e -> Nat.log2_up (set_size e) < d -> length s < k -> i <= length s ->
  ty_of e <> TOther -> no_str e = true -> eval s d k word_digits e i = Ok r -> ok r = true ->
  typed (at_ r) (ty_of e) /\ peg s e i (Some (cur r, items (at_ r))).
Proof.
  intros Hw Hd Hk Hi T N E O. pose proof (eval_good s d k word_digits Hk e Hw Hd i Hi) as G. rewrite E in G. cbn in G.
  rewrite O in G. destruct G as (_&_&_&y&P&F). destruct (F T N) as [F1 F2]. rewrite F2. auto.
Qed.
Lemma weed_progress_lemma s d k e i r : wf word_digits e -> Nat.log2_up (set_size e) < d -> length s < k -> i <= length s ->
  nullable e = false -> eval s d k word_digits e i = Ok r -> ok r = true -> i < cur r.
Proof.
  intros Hw Hd Hk Hi N E O. pose proof (eval_good s d k word_digits Hk e Hw Hd i Hi) as G. rewrite E in G. cbn in G.
  rewrite O, N in G. tauto.
Qed.

(** numbers *)
Lemma run_ok radix post cs ds : Forall2 (fun c v => digit_of radix c = Some v) cs ds -> forall m, (Z.of_nat (length cs) <= m)%Z ->
  (Z.of_nat (length cs) = m \/ no_digit radix post) -> run radix m (cs ++ post) = ds.
Proof.
  induction 1 as [|c v cs ds H F IH]; intros m Hm HP; cbn [app run length] in *.
  - destruct post as [|c post]; [easy|]. cbn. destruct (Z.ltb_spec 0 m); [|easy]. destruct HP as [|HP]; [lia|]. now rewrite (HP c eq_refl).
  - destruct (Z.ltb_spec 0 m); [|lia]. rewrite H. f_equal. apply IH; [lia|]. destruct HP; [left; lia|now right].
Qed.
Lemma nth_app_at (pre l : list Z) n : nth_error (pre ++ l) (length pre + n) = nth_error l n.
Proof. rewrite nth_error_app2 by lia. f_equal. lia. Qed.
Lemma skipn_app_at (pre l : list Z) : skipn (length pre) (pre ++ l) = l.
Proof. now rewrite skipn_app, Nat.sub_diag, skipn_all. Qed.

Lemma call_i_spells pre t radix mind maxd tf cs post z : num_ok word_digits t radix mind maxd -> spells radix maxd cs post z ->
  exists c, nth_error cs 0 = Some c /\ digit_of radix c <> None /\
  call_i (pre ++ cs ++ post) word_digits t radix mind maxd tf (length pre) c =
    Ok (PN true (length pre + length cs) (conv t z)).
Proof.
  intros (HR&Hm&Hx&Hg) (NE&HL&HP&ds&F&Hz). destruct cs as [|c cs]; [congruence|]. exists c.
  split; [easy|]. split; [inversion F; congruence|].
  destruct (call_i_ok (pre ++ (c :: cs) ++ post) word_digits t radix mind maxd tf HR Hm Hx Hg (length pre) c) as [I _].
  - rewrite <- (Nat.add_0_r (length pre)), nth_app_at. reflexivity.
  - rewrite I, skipn_app_at, (run_ok radix post _ _ F maxd HL HP), Hz. destruct F as [|x v l m]; [congruence|].
    cbn [length]. assert (L : length l = length m) by (clear - F; induction F; cbn; congruence). now rewrite L.
Qed.
Lemma digit_not_sign radix c : digit_of radix c <> None -> In radix [2; 8; 10; 16]%Z -> (c =? 43)%Z = false /\ (c =? 45)%Z = false.
Proof.
  intros H HR. split; apply Z.eqb_neq; intros ->; apply H; cbn in HR; destruct HR as [<-|[<-|[<-|[<-|[]]]]]; reflexivity.
Qed.
Lemma first_not_end (pre l : list Z) c : nth_error l 0 = Some c -> negb (length pre =? length (pre ++ l)) = true /\ rd (pre ++ l) (length pre) = Ok c.
Proof.
  intros H. destruct l as [|x l]; [discriminate|]. cbn in H. injection H as ->. split.
  - rewrite app_length. cbn [length]. destruct (Nat.eqb_spec (length pre) (length pre + S (length l))); [lia|easy].
  - unfold rd. rewrite <- (Nat.add_0_r (length pre)), nth_app_at. reflexivity.
Qed.

Lemma conv_neg_min t : sgn t = true -> conv t (- tmin t) = tmin t.
Proof.
  intros Hs. pose proof (half_pos t). pose proof (wid_half t). pose proof (pow_wid t).
  assert (V : is_val t (tmin t)) by (unfold is_val, tmin; rewrite Hs; lia).
  rewrite <- (conv_id t _ V) at 2. apply conv_of_mod. unfold tmin. rewrite Hs.
  replace (- - 2 ^ (wid t - 1))%Z with (- 2 ^ (wid t - 1) + 1 * 2 ^ wid t)%Z by lia. apply Z.mod_add. lia.
Qed.
Lemma uint_lemma pre t radix mind maxd cs post z d k : num_ok word_digits t radix mind maxd -> spells radix maxd cs post z -> is_val t z ->
  eval (pre ++ cs ++ post) d k word_digits (EPrim (PUint t radix mind maxd)) (length pre) =
    Ok (ER true (length pre + length cs) (ABase (VInt t z)) (length pre + length cs)).
Proof.
  intros Hn HS Hz. destruct (call_i_spells pre t radix mind maxd (length pre) cs post z Hn HS) as (c&N&_&C).
  cbn [eval prim_eval]. unfold uint_parse.
  destruct (first_not_end pre (cs ++ post) c) as [E1 E2]; [destruct cs; [discriminate|exact N]|].
  rewrite E1, E2. cbn [bind]. rewrite C, conv_id by exact Hz. reflexivity.
Qed.
Lemma int_lemma pre sign t radix mind maxd cs post z v d k : num_ok word_digits t radix mind maxd -> spells radix maxd cs post z -> is_val t v ->
  (sign = [] /\ v = z \/ sign = [43%Z] /\ v = z \/ sign = [45%Z] /\ v = (- z)%Z /\ (sgn t = true -> 2 <= lg t -> v <> tmin t)) ->
  eval (pre ++ sign ++ cs ++ post) d k word_digits (EPrim (PInt t radix mind maxd)) (length pre) =
    Ok (ER true (length pre + length sign + length cs) (ABase (VInt t v)) (length pre + length sign + length cs)).
Proof.
  intros Hn HS Hv H. cbn [eval prim_eval]. unfold int_parse.
  destruct H as [[-> ->]|[[-> ->]|(->&->&H)]].
  - destruct (call_i_spells pre t radix mind maxd (length pre) cs post z Hn HS) as (c&N&D&C).
    destruct (first_not_end pre (cs ++ post) c) as [E1 E2]; [destruct cs; [discriminate|exact N]|].
    destruct (digit_not_sign radix c D ltac:(apply Hn)) as [D1 D2].
    cbn [app length]. rewrite E1, E2. cbn [bind]. rewrite D1, D2. unfold int_call. rewrite E1, E2. cbn [bind]. rewrite C, conv_id by exact Hv.
    cbn. now rewrite Nat.add_0_r.
  - destruct (call_i_spells (pre ++ [43%Z]) t radix mind maxd (length pre) cs post z Hn HS) as (c&N&D&C).
    destruct (first_not_end pre ([43%Z] ++ cs ++ post) 43 eq_refl) as [E1 E2].
    rewrite E1, E2. cbn [bind Z.eqb Pos.eqb]. unfold int_call.
    destruct (first_not_end (pre ++ [43%Z]) (cs ++ post) c) as [E3 E4]; [destruct cs; [discriminate|exact N]|].
    assert (L1 : length (pre ++ [43%Z]) = length pre + 1) by (rewrite app_length; reflexivity).
    rewrite <- app_assoc, L1 in E3, E4, C. cbn [length]. replace (S (length pre)) with (length pre + 1) by lia.
    rewrite E3, E4. cbn [bind]. rewrite C, conv_id by exact Hv. reflexivity.
  - destruct (call_i_spells (pre ++ [45%Z]) t radix mind maxd (length pre) cs post z Hn HS) as (c&N&D&C).
    destruct (first_not_end pre ([45%Z] ++ cs ++ post) 45 eq_refl) as [E1 E2].
    rewrite E1, E2. cbn [bind Z.eqb Pos.eqb]. unfold int_call.
    destruct (first_not_end (pre ++ [45%Z]) (cs ++ post) c) as [E3 E4]; [destruct cs; [discriminate|exact N]|].
    assert (L1 : length (pre ++ [45%Z]) = length pre + 1) by (rewrite app_length; reflexivity).
    rewrite <- app_assoc, L1 in E3, E4, C. cbn [length]. replace (S (length pre)) with (length pre + 1) by lia.
    rewrite E3, E4. cbn [bind]. rewrite C. cbn [bind]. unfold make_result. cbn [nok nval ncur andb Z.ltb Z.compare].
    assert (M : conv t (- conv t z) = (- z)%Z).
    { rewrite <- (conv_id t (- z) Hv). apply conv_of_mod. pose proof (pow_wid t) as P.
      replace (- conv t z)%Z with (-1 * conv t z)%Z by lia. rewrite Z.mul_mod, conv_mod, <- Z.mul_mod by lia.
      replace (-1 * z)%Z with (- z)%Z by lia. reflexivity. }
    destruct (sgn t && (conv t z =? tmin t)%Z && (2 <=? lg t)) eqn:U; [|cbn [bind]; unfold number; cbn [nok nval ncur presult]; now rewrite M].
    exfalso. apply andb_prop in U. destruct U as [U U3]. apply andb_prop in U. destruct U as [U1 U2].
    apply Z.eqb_eq in U2. apply Nat.leb_le in U3. apply (H U1 U3). rewrite <- M, U2.
    apply conv_neg_min; exact U1.
Qed.

(** laws *)
Lemma fine_total s d k e i : fine s d e -> length s < k -> i <= length s ->
  exists r o, eval s d k word_digits e i = Ok r /\ peg s e i o /\
    match o with Some (j, _) => ok r = true /\ cur r = j /\ j <= length s | None => ok r = false /\ cur r = i end.
Proof.
  intros (Hw&HI&Hd) Hk Hi. pose proof (weed_matches_lemma s d k e i Hw Hd Hk Hi) as G.
  destruct (eval s d k word_digits e i) as [r| |]; [|congruence|contradiction].
  destruct G as (_&G1&o&G2&_&G3). exists r, o. split; [easy|]. split; [easy|]. destruct o as [[j y]|]; intuition lia.
Qed.
Lemma seen_eq s d k a b i : fine s d a -> fine s d b -> length s < k -> i <= length s -> (forall o, peg s a i o -> peg s b i o) ->
  seen (eval s d k word_digits a i) = seen (eval s d k word_digits b i).
Proof.
  intros Fa Fb Hk Hi H. destruct (fine_total s d k a i Fa Hk Hi) as (r&o&E&P&M).
  destruct (fine_total s d k b i Fb Hk Hi) as (q&o'&E'&P'&M'). rewrite E, E'. cbn.
  rewrite (peg_det s b i o' o P' (H o P)) in M'. destruct o as [[j y]|]; destruct M as [-> M], M' as [-> M']; do 2 f_equal; intuition lia.
Qed.
Lemma fine2 s d (f : pexp -> pexp -> pexp) a b :
  (forall a b, wf word_digits a -> wf word_digits b -> wf word_digits (f a b)) -> (forall a b, wide_int (f a b) = wide_int a || wide_int b) ->
  (forall a b, set_size (f a b) = Nat.max (set_size a) (set_size b)) -> fine s d a -> fine s d b -> fine s d (f a b).
Proof.
  intros H1 H2 H3 (A1&A2&A3) (B1&B2&B3). split; [auto|]. split; [rewrite H2, A2, B2; easy|]. rewrite H3.
  destruct (Nat.max_spec (set_size a) (set_size b)) as [[_ ->]|[_ ->]]; auto.
Qed.
Lemma fine_seq s d a b : fine s d a -> fine s d b -> fine s d (ESeq a b).
Proof. apply (fine2 s d ESeq); cbn; auto. Qed.
Lemma fine_alt s d a b : fine s d a -> fine s d b -> fine s d (EAlt a b).
Proof. apply (fine2 s d EAlt); cbn; auto. Qed.
Lemma fine_minus s d a b : fine s d a -> fine s d b -> fine s d (EMinus a b).
Proof. apply (fine2 s d EMinus); cbn; auto. Qed.
Lemma fine_not s d a : fine s d a -> fine s d (ENot a).
Proof. intros H. exact H. Qed.
Lemma fine_and s d a : fine s d a -> fine s d (EAnd a).
Proof. intros H. exact H. Qed.
Lemma fine_eps s d a : fine s d a -> fine s d (EPrim PEps).
Proof. intros (A1&A2&A3). repeat split; cbn. lia. Qed.

Lemma laws_lemma s d k i a b c : fine s d a -> fine s d b -> fine s d c -> length s < k -> i <= length s ->
  let same x y := seen (eval s d k word_digits x i) = seen (eval s d k word_digits y i) in
  same (ESeq (ESeq a b) c) (ESeq a (ESeq b c)) /\
  same (EAlt (EAlt a b) c) (EAlt a (EAlt b c)) /\
  same (EAlt a a) a /\
  same (EAlt (ESeq a b) (ESeq a c)) (ESeq a (EAlt b c)) /\
  same (ENot (ENot a)) (EAnd a) /\
  same (ENot (EAlt a b)) (ESeq (ENot a) (ENot b)) /\
  same (EMinus a b) (ESeq (ENot b) a) /\
  same (ESeq (EPrim PEps) a) a /\
  same (ENeg a) (EAlt a (EPrim PEps)) /\
  (nullable a = false -> lim_ok a -> same (EStar a) (EAlt (EPlus a) (EPrim PEps))).
Proof.
  intros Fa Fb Fc Hk Hi same.
  pose proof (fun x y => seen_eq s d k x y i) as SE.
  pose proof (fine_seq s d) as FS. pose proof (fine_alt s d) as FA. pose proof (fine_minus s d) as FM.
  pose proof (fine_not s d) as FN. pose proof (fine_and s d) as FD. pose proof (fine_eps s d a Fa) as FE.
  assert (TOT : forall e, fine s d e -> forall j, j <= length s -> exists o, peg s e j o /\ match o with Some (l, _) => l <= length s | None => True end).
  { intros e F j Hj. destruct (fine_total s d k e j F Hk Hj) as (r&o&_&P&M). exists o. split; [easy|]. destruct o as [[l y]|]; tauto. }
  repeat split; unfold same; try (apply SE; auto 10; cbn [peg]; fold peg; intros o H).
  - destruct H as [(j&y&l&z&[(j1&y1&l1&z1&A&B&Q)|[(j1&y1&A&B&Q)|[A Q]]]&C&->)|[(j&y&[(j1&y1&l1&z1&A&B&Q)|[(j1&y1&A&B&Q)|[A Q]]]&C&->)|[[(j1&y1&l1&z1&A&B&Q)|[(j1&y1&A&B&Q)|[A Q]]] ->]]];
      try discriminate; try (injection Q as -> ->).
    + left. exists j1, y1, l, (z1 ++ z). split; [easy|]. split; [|now rewrite app_assoc]. left. eauto 10.
    + right. left. exists j1, y1. split; [easy|]. split; [|easy]. right. left. eauto.
    + right. left. exists j1, y1. split; [easy|]. split; [|easy]. right. right. auto.
    + right. right. auto.
  - destruct H as [(x&->&[(x'&Q&A)|[A B]])|[[(x'&Q&A)|[A B]] C]]; try discriminate.
    + left. eauto.
    + right. split; [easy|]. left. eauto.
    + right. split; [easy|]. right. auto.
  - destruct H as [(x&->&A)|[_ A]]; exact A.
  - destruct H as [(x&->&[(j1&y1&l1&z1&A&B&Q)|[(j1&y1&A&B&Q)|[A Q]]])|[[(j1&y1&l1&z1&A&B&Q)|[(j1&y1&A&B&Q)|[A Q]]] C]]; try discriminate.
    + left. exists j1, y1, l1, z1. rewrite Q. split; [easy|]. split; [|easy]. left. eauto.
    + destruct C as [(j2&y2&l2&z2&A'&C&Q')|[(j2&y2&A'&C&Q')|[A' Q']]]; pose proof (peg_det s a i _ _ A A') as X; try discriminate; injection X as <- <-.
      * left. exists j1, y1, l2, z2. auto 10.
      * right. left. exists j1, y1. auto.
    + destruct C as [(j2&y2&l2&z2&A'&C&Q')|[(j2&y2&A'&C&Q')|[A' Q']]]; try (pose proof (peg_det s a i _ _ A A') as X; discriminate).
      right. right. auto.
  - destruct H as [(x&[(x'&A&Q)|[A Q]]&->)|[[(x'&A&Q)|[A Q]] ->]]; try discriminate; [right; auto|left; eauto].
  - destruct H as [(x&[(x'&Q&A)|[A B]]&->)|[[(x'&Q&A)|[A B]] ->]]; try discriminate.
    + right. right. split; [|easy]. left. exists x. auto.
    + right. left. exists i, []. split; [right; auto|]. split; [|easy]. left. eauto.
    + left. exists i, [], i, []. split; [right; auto|]. split; [right; auto|easy].
  - destruct H as [(x&->&A&B)|[(x&y&A&B&->)|[A ->]]].
    + left. destruct x as [j z]. exists i, [], j, z. split; [right; auto|]. auto.
    + right. right. split; [|easy]. left. eauto.
    + destruct (TOT b Fb i Hi) as ([x|]&B&_); [right; right; split; [left; eauto|easy]|]. right. left. exists i, []. split; [right; auto|]. auto.
  - destruct H as [(j&y&l&z&Q&A&->)|[(j&y&Q&A&->)|[Q _]]]; cbn in Q; try discriminate; injection Q as -> ->; exact A.
  - intros Hn Hl. apply SE; auto.
    + destruct Fa as (A1&A2&A3). repeat split; auto.
    + apply FA; auto. destruct Fa as (A1&A2&A3). repeat split; auto.
    + cbn [peg]. intros o (ys&j&R&->). destruct ys as [|y ys].
      * inversion R as [i0 B0|b0 i0 N F|]; subst.
        -- exfalso. clear - Hl B0. destruct a; cbn in B0; try discriminate. destruct cat; try discriminate. injection B0 as <-. cbn in Hl. lia.
        -- right. split; [right; auto|]. cbn. do 2 f_equal. unfold kept. destruct a; cbn; try reflexivity. destruct cat; cbn; now rewrite ?firstn_nil, ?skipn_nil.
      * left. eexists. split; [reflexivity|]. left. exists (y :: ys), j. repeat split; auto. discriminate.
Qed.

(** * What does not hold *)
Definition u32 : ity := Ity false 2.
Definition i32 : ity := Ity true 2.
Definition chr (c : Z) : pexp := EPrim (PChar c).
Lemma fine_chr s c : fine s 1 (chr c).
Proof. repeat split; cbn; lia. Qed.

Lemma mod_trailing_lemma : ~ forall s d k e f i r j y ys l, fine s d e -> fine s d f -> nullable e || nullable f = false -> limit_of e = None ->
  length s < k -> i <= length s -> eval s d k word_digits (EMod e f) i = Ok r -> peg s e i (Some (j, y)) ->
  seps false (peg s e) (peg s f) None j ys l -> cur r = l.
Proof.
  intros H. specialize (H [49; 44]%Z 1 3 (chr 49) (XChar 44) 0 (ER true 2 AUnused 2) 1 [IChar 49] [] 1).
  discriminate H; try (repeat split; cbn; lia); try reflexivity.
  - left. exists 49%Z. auto.
  - apply (seps_last false (peg [49; 44]%Z (chr 49)) (peg [49; 44]%Z (XChar 44)) None 1 2 []); [discriminate| |].
    + left. exists 44%Z. auto.
    + right. split; [discriminate|easy].
Qed.
Lemma repeat_count_lemma : ~ forall s d k e c i r o, fine s d e -> nullable e = false -> limit_of e = None -> length s < k -> i <= length s ->
  eval s d k word_digits (ERepeat (Some c) e) i = Ok r -> ok r = true -> peg s (ERepeat (Some c) e) i o -> exists y, o = Some (cur r, y).
Proof.
  intros H. destruct (H [97; 97]%Z 1 3 (chr 97) 2 0 (ER true 0 AUnused 0) (Some (2, [IChar 97; IChar 97]))) as [y Q];
    try (repeat split; cbn; lia); try reflexivity; [|discriminate].
  exists [[IChar 97]; [IChar 97]], 2. split; [|reflexivity].
  apply (reps_more _ None 0 1); [discriminate|left; exists 97%Z; auto|]. apply (reps_more _ None 1 2); [discriminate|left; exists 97%Z; auto|].
  apply reps_end; [discriminate|right; split; [discriminate|easy]].
Qed.
Lemma repeat_any_lemma : ~ forall s d k e i r o, fine s d e -> nullable e = false -> limit_of e = None -> length s < k -> i <= length s ->
  eval s d k word_digits (ERepeat None e) i = Ok r -> peg s (ERepeat None e) i o -> exists y, o = Some (cur r, y).
Proof.
  intros H. destruct (H [97]%Z 1 3 (chr 97) 0 (ER true 0 AUnused 0) (Some (1, [IChar 97]))) as [y Q];
    try (repeat split; cbn; lia); try reflexivity; [|discriminate].
  exists [[IChar 97]], 1. split; [|reflexivity].
  apply (reps_more _ None 0 1); [discriminate|left; exists 97%Z; auto|].
  apply reps_end; [discriminate|right; split; [discriminate|easy]].
Qed.
Lemma stopover_one_lemma : ~ forall s d k e n i r o, fine s d e -> nullable e = false -> 1 <= n -> length s < k -> i <= length s ->
  eval s d k word_digits (EStar (ELim n Stopover e)) i = Ok r -> peg s (EStar (ELim n Stopover e)) i o -> exists y, o = Some (cur r, y).
Proof.
  intros H. destruct (H [97; 97]%Z 1 3 (chr 97) 1 0 (ER true 2 (ABase (VStr [97%Z])) 2) (Some (1, [IChar 97]))) as [y Q];
    try (repeat split; cbn; lia); try reflexivity; [|discriminate].
  exists [[IChar 97]], 1. split; [|reflexivity].
  apply (reps_more _ (Some 1) 0 1); [discriminate|left; exists 97%Z; auto|]. apply reps_full.
Qed.
(** numeric/int.hpp: bin, oct and hex give size_t(-1) as the least number of digits *)
Lemma hex_lemma : ~ forall t cs z, spells 16 (word_digits t 16) cs [] z -> is_val t z ->
  exists r, eval cs 1 0 word_digits (EPrim (PUint t 16 (2 ^ 64 - 1) (word_digits t 16))) 0 = Ok r /\ ok r = true.
Proof.
  intros H. destruct (H u32 [49; 102]%Z 31%Z) as (r&E&O).
  - split; [discriminate|]. split; [vm_compute; discriminate|]. split; [right; intros c Q; discriminate|]. exists [1; 15]%Z. split; [repeat constructor|reflexivity].
  - unfold is_val. cbn. lia.
  - cbv in E. injection E as <-. discriminate O.
Qed.
Lemma min_digits_lemma : ~ forall t mind s r, eval s 1 0 word_digits (EPrim (PUint t 10 mind (word_digits t 10))) 0 = Ok r -> ok r = true ->
  (mind <= Z.of_nat (length (run 10 (word_digits t 10) s)))%Z.
Proof. intros H. specialize (H u32 2%Z [49; 120]%Z (ER true 1 (ABase (VInt u32 1)) 1) eq_refl eq_refl). vm_compute in H. now apply H. Qed.
Lemma int_min_lemma : ~ forall t cs, spells 10 (word_digits t 10) cs [] (- tmin t) ->
  eval (45%Z :: cs) 1 0 word_digits (EPrim (PInt t 10 1 (word_digits t 10))) 0 <> UB.
Proof.
  intros H. apply (H i32 [50; 49; 52; 55; 52; 56; 51; 54; 52; 56]%Z); [|reflexivity].
  split; [discriminate|]. split; [vm_compute; discriminate|]. split; [right; intros c Q; discriminate|].
  exists [2; 1; 4; 7; 4; 8; 3; 6; 4; 8]%Z. split; [repeat constructor|reflexivity].
Qed.
Lemma string_attr_lemma : ~ forall t, eval t 1 0 word_digits (EPrim (PStr t)) 0 = Ok (ER true (length t) (ABase (VStr t)) (length t)).
Proof. intros H. specialize (H [97%Z]). discriminate H. Qed.
Lemma set_minus_lemma : ~ forall set d c, Nat.log2_up (length set) < d -> eval [c] d 0 word_digits (EPrim (PSet set)) 0 <> UB.
Proof. intros H. apply (H [45]%Z 1 97%Z); [cbn; lia|reflexivity]. Qed.
Lemma set_minus_last_lemma : ~ forall set d, Nat.log2_up (length set) < d -> hd 0%Z set <> 45%Z -> In 45%Z set ->
  exists r, eval [45%Z] d 0 word_digits (EPrim (PSet set)) 0 = Ok r /\ ok r = true.
Proof.
  intros H. destruct (H [97; 45]%Z 2) as (r&E&O); [cbn; lia|discriminate|cbn; auto|]. cbv in E. injection E as <-. discriminate O.
Qed.
Lemma star_eps_lemma s d k i : eval s d k word_digits (EStar (EPrim PEps)) i = Fuel.
Proof.
  cbn [eval limit_of times_of ty_of]. unfold repeat_eval. cbn [prim_eval bind presult ok cx].
  assert (G : forall n, call_inf n (eval s d k word_digits (EPrim PEps)) i (presult true i AUnused) = Fuel).
  { induction n as [|n IH]; [easy|]. cbn [call_inf presult ok cx eval prim_eval bind]. exact IH. }
  exact (G k).
Qed.

Lemma char_set_lemma s d k set i c : hd 0%Z set <> 45%Z -> last set 0%Z <> 45%Z -> Nat.log2_up (length set) < d ->
  nth_error s i = Some c -> exists r, eval s d k word_digits (EPrim (PSet set)) i = Ok r /\
    (ok r = true <-> in_set set c) /\ cur r = (if ok r then S i else i) /\ (ok r = true -> at_ r = ABase (VChar c)).
Proof.
  intros H1 H2 Hd N. assert (i < length s) by (apply nth_error_Some; congruence).
  cbn [eval prim_eval]. unfold one. destruct (Nat.eqb_spec i (length s)); [lia|]. cbn [negb]. unfold rd. rewrite N. cbn [bind].
  destruct (find_character_set_ok d set c) as (j&J&Hj); auto. rewrite J. cbn [bind].
  eexists. split; [reflexivity|]. destruct (negb (j =? length set)); cbn; repeat split; auto; try tauto; discriminate.
Qed.
Lemma seps_trail P Q b i ys j : seps true P Q b i ys j ->
  exists l, seps false P Q b i ys l /\ (j = l \/ exists x, Q l (Some (j, x)) /\ P j None).
Proof.
  induction 1 as [i|b i N F|b i j x N F G|b i j x l y ys m N F G H IH].
  - exists i. split; [constructor|auto].
  - exists i. split; [now constructor|auto].
  - exists i. split; [apply (seps_last false P Q b i j x); auto|]. right. eauto.
  - destruct IH as (l'&A&B). exists l'. split; [|exact B]. eapply seps_more; eauto.
Qed.
Lemma mod_list_lemma s d k e f i r : fine s d e -> fine s d f -> nullable e && nullable f = false -> lim_ok e ->
  length s < k -> i <= length s -> eval s d k word_digits (EMod e f) i = Ok r ->
  (ok r = false /\ peg s e i None) \/
  (ok r = true /\ exists j y ys l, peg s e i (Some (j, y)) /\
     seps false (peg s e) (peg s f) (option_map pred (most e)) j ys l /\
     (cur r = l \/ exists x, peg s f l (Some (cur r, x)) /\ peg s e (cur r) None)).
Proof.
  intros Fe Ff Hn Hl Hk Hi E.
  assert (F : fine s d (EMod e f)).
  { destruct Fe as (A1&A2&A3), Ff as (B1&B2&B3). split; [cbn; auto|]. split; [cbn; now rewrite A2, B2|]. cbn [set_size].
    destruct (Nat.max_spec (set_size e) (set_size f)) as [[_ ->]|[_ ->]]; auto. }
  destruct (fine_total s d k _ i F Hk Hi) as (r'&o&E'&P&M). assert (r' = r) by congruence. subst r'.
  cbn [peg] in P. destruct P as [(j&y&ys&l&P1&P2&->)|[P ->]]; [right|left; tauto].
  destruct M as (M1&M2&_). split; [easy|]. destruct (seps_trail _ _ _ _ _ _ P2) as (l'&S1&S2). exists j, y, ys, l'. rewrite M2. auto.
Qed.
