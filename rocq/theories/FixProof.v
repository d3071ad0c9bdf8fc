(** Fixed containers: building a result, and the copying and transforming algorithms. *)
From Coq Require Import List Arith Bool Lia Permutation ZifyBool.
From Verif Require Import Base SearchModel SearchSpec SearchProof OrderSpec OrderModel ListFacts MutSpec MutProof NumSpec.
From Verif Require Import FixModel FixSpec.
Import ListNotations.

Section Results.
  Context {A : Type}.
  Implicit Types (c : cont A) (l xs args : list A).

  Lemma rd_ok (l : list A) i x : nth_error l i = Some x -> rd l i = Ok x.
  Proof. unfold rd. now intros ->. Qed.

  Lemma rd_eq (l l' : list A) i j : nth_error l i = nth_error l' j -> rd l i = rd l' j.
  Proof. unfold rd. now intros ->. Qed.

  Lemma expand_rd (f : nat -> res A) l : forall i, (forall j, j < length l -> f (i + j) = rd l j) ->
    expand f i (length l) = Ok l.
  Proof.
    induction l as [|x t IH]; intros i H; [reflexivity|]. cbn [length expand].
    pose proof (H 0 ltac:(cbn; lia)) as H0. rewrite Nat.add_0_r in H0. cbn in H0. rewrite H0. cbn [bind].
    rewrite IH; [reflexivity|]. intros j Hj. specialize (H (S j) ltac:(cbn; lia)).
    rewrite Nat.add_succ_r in H. exact H.
  Qed.

  Lemma remake_ok c size l : length l = length (cbase c) -> remake c size l = Ok (Cont l (coff c) size).
  Proof. intros H. unfold remake, static_size. apply Nat.eqb_eq in H. now rewrite H. Qed.

  Lemma remake_indexes_ok c f l : length l = length (cbase c) ->
    (forall i, i < length l -> f i = rd l i) -> remake_indexes c f = Ok (Cont l (coff c) (csize c)).
  Proof.
    intros E H. unfold remake_indexes, static_size. rewrite <- E, expand_rd by exact H.
    cbn [bind]. now apply remake_ok.
  Qed.

  Lemma with_front_all c out : length out <= csize c -> with_front c out = Cont (paste (cbase c) (coff c) out) (coff c) (csize c).
  Proof. intros H. unfold with_front. now rewrite firstn_all2. Qed.

  Lemma firstn_out c (out : list A) : wf c -> coff c + length (firstn (csize c) out) <= length (cbase c).
  Proof. unfold wf. rewrite firstn_length. lia. Qed.

  (** The result is given by its elements at all positions. *)
  Lemma remake_front c f out : wf c ->
    (forall i, coff c <= i -> i < coff c + csize c -> i < coff c + length out -> f i = rd out (i - coff c)) ->
    (forall i, i < length (cbase c) -> ~ (coff c <= i /\ i < coff c + csize c /\ i < coff c + length out) -> f i = rd (cbase c) i) ->
    remake_indexes c f = Ok (with_front c out).
  Proof.
    intros Wc H1 H2. unfold with_front. pose proof (firstn_out c out Wc) as F.
    apply remake_indexes_ok; [now apply paste_length|].
    rewrite paste_length by exact F. intros i Hi. rewrite firstn_length in F.
    destruct (Nat.lt_ge_cases i (coff c)) as [C1|C1].
    - rewrite H2 by lia. apply rd_eq. symmetry. apply nth_paste_out; rewrite firstn_length; lia.
    - destruct (Nat.lt_ge_cases i (coff c + Nat.min (csize c) (length out))) as [C2|C2].
      + rewrite H1 by lia. apply rd_eq. symmetry. rewrite nth_paste_in by (rewrite firstn_length; lia).
        apply nth_error_firstn. lia.
      + rewrite H2 by lia. apply rd_eq. symmetry. apply nth_paste_out; rewrite firstn_length; lia.
  Qed.

  Lemma remake_from_ok c n f out : wf c -> length out = n ->
    (forall i, i < csize c -> i < n -> f i = rd out i) -> remake_from c n f = Ok (with_front c out).
  Proof.
    intros Wc E H. unfold remake_from. apply remake_front; [exact Wc| |]; intros i.
    - intros H1 H2 H3. replace ((coff c <=? i) && (i <? coff c + csize c) && (i <? coff c + n)) with true by lia.
      apply H; lia.
    - intros H1 H2.
      replace ((coff c <=? i) && (i <? coff c + csize c) && (i <? coff c + n)) with false by lia. reflexivity.
  Qed.

  (** ** container_complate *)
  Lemma complate_2_ok c : forall n args, length args + n = length (cbase c) ->
    container_complate_2 n c args = Ok (Cont (args ++ skipn (length args) (cbase c)) (coff c) (csize c)).
  Proof.
    induction n as [|n IH]; intros args H; cbn [container_complate_2].
    - rewrite skipn_all2 by lia. rewrite app_nil_r. apply remake_ok. lia.
    - destruct (nth_error_ex (cbase c) (length args) ltac:(lia)) as [x Hx].
      rewrite (rd_ok _ _ _ Hx). cbn [bind]. rewrite IH by (rewrite app_length; cbn; lia).
      rewrite app_length, <- app_assoc. cbn [length app]. do 2 f_equal. f_equal.
      clear -Hx. revert Hx. generalize (length args) as n, (cbase c) as l. clear.
      induction n as [|n IH]; intros [|y l]; cbn; try discriminate; [congruence|]. apply IH.
  Qed.

  Lemma paste_front l i x args : nth_error l i = Some x -> paste l (S i) args = paste l i (x :: args).
  Proof.
    intros H. unfold paste. cbn [length]. replace (i + S (length args)) with (S i + length args) by lia.
    cbn [app]. assert (E : firstn (S i) l = firstn i l ++ [x]).
    { revert i H. induction l as [|y t IH]; intros [|i] H; cbn in *; try discriminate; [congruence|]. f_equal. now apply IH. }
    rewrite E, <- app_assoc. reflexivity.
  Qed.

  Lemma complate_1_ok c : forall r args, r + length args <= length (cbase c) ->
    container_complate_1 c r args = Ok (Cont (paste (cbase c) r args) (coff c) (csize c)).
  Proof.
    induction r as [|r IH]; intros args H; cbn [container_complate_1]; unfold static_size.
    - destruct (Nat.eqb_spec (length args) (length (cbase c))) as [E|N].
      + rewrite remake_ok by exact E. unfold paste. cbn. rewrite skipn_all2 by lia. now rewrite app_nil_r.
      + rewrite complate_2_ok by lia. reflexivity.
    - replace (length args =? length (cbase c)) with false by lia.
      destruct (nth_error_ex (cbase c) r ltac:(lia)) as [x Hx]. rewrite (rd_ok _ _ _ Hx). cbn [bind].
      rewrite IH by (cbn; lia). now rewrite (paste_front _ _ _ _ Hx).
  Qed.

  Lemma complate_ok c args : coff c + length args <= length (cbase c) ->
    container_complate c args = Ok (Cont (paste (cbase c) (coff c) args) (coff c) (csize c)).
  Proof.
    intros H. unfold container_complate, static_size.
    destruct (Nat.eqb_spec (length args) (length (cbase c))) as [E|N].
    - rewrite remake_ok by exact E. replace (coff c) with 0 by lia. unfold paste. cbn.
      rewrite skipn_all2 by lia. now rewrite app_nil_r.
    - now apply complate_1_ok.
  Qed.

  Lemma complate_full c args : length args = static_size c -> container_complate c args = remake c (csize c) args.
  Proof. intros H. unfold container_complate. rewrite H. now rewrite Nat.eqb_refl. Qed.

  Lemma complate_front c out : wf c -> container_complate c (firstn (csize c) out) = Ok (with_front c out).
  Proof. intros Wc. apply complate_ok. now apply firstn_out. Qed.

  Lemma complate_nil c : wf c -> container_complate c [] = Ok (with_front c []).
  Proof. intros Wc. pose proof (complate_front c [] Wc) as H. now rewrite firstn_nil in H. Qed.

  Lemma complate_backward_2_ok c : forall n args, length args + n = length (cbase c) ->
    container_complate_backward_2 n c args = Ok (Cont (firstn n (cbase c) ++ args) (coff c) (csize c)).
  Proof.
    induction n as [|n IH]; intros args H; cbn [container_complate_backward_2].
    - cbn. apply remake_ok. lia.
    - unfold static_size. replace (length (cbase c) - (length args + 1)) with n by lia.
      destruct (nth_error_ex (cbase c) n ltac:(lia)) as [x Hx].
      rewrite (rd_ok _ _ _ Hx). cbn [bind]. rewrite IH by (cbn; lia).
      pose proof (paste_front _ _ _ args Hx) as P. unfold paste in P.
      assert (E : firstn (S n) (cbase c) = firstn n (cbase c) ++ [x]).
      { clear -Hx. revert n Hx. generalize (cbase c) as l.
        induction l as [|y t IH]; intros [|n] Hx; cbn in *; try discriminate; [congruence|]. f_equal. now apply IH. }
      rewrite E, <- app_assoc. reflexivity.
  Qed.

  Lemma complate_backward_1_ok c : forall r args, r + length args <= length (cbase c) ->
    container_complate_backward_1 c r args =
      Ok (Cont (paste (cbase c) (length (cbase c) - r - length args) args) (coff c) (csize c)).
  Proof.
    induction r as [|r IH]; intros args H; cbn [container_complate_backward_1]; unfold static_size.
    - destruct (Nat.eqb_spec (length args) (length (cbase c))) as [E|N].
      + rewrite remake_ok by exact E. replace (length (cbase c) - 0 - length args) with 0 by lia.
        unfold paste. cbn. rewrite skipn_all2 by lia. now rewrite app_nil_r.
      + rewrite complate_backward_2_ok by lia. unfold paste. rewrite (skipn_all2 (cbase c)) by lia.
        rewrite app_nil_r. rewrite Nat.sub_0_r. reflexivity.
    - replace (length args =? length (cbase c)) with false by lia.
      destruct (nth_error_ex (cbase c) (length (cbase c) - S r) ltac:(lia)) as [x Hx].
      rewrite (rd_ok _ _ _ Hx). cbn [bind].
      rewrite IH by (rewrite app_length; cbn; lia). rewrite app_length. cbn [length].
      do 2 f_equal. replace (length (cbase c) - r - (length args + 1)) with (length (cbase c) - S r - length args) by lia.
      symmetry. apply paste_ext; rewrite ?app_length; cbn [length]; [lia| |].
      + intros j Hj. destruct (Nat.eq_dec j (length (cbase c) - S r)) as [->|Nj].
        * rewrite nth_paste_out by lia. rewrite Hx.
          replace (length (cbase c) - S r - (length (cbase c) - S r - length args)) with (length args) by lia.
          now rewrite nth_error_mid.
        * rewrite nth_paste_in by lia. symmetry. apply nth_error_app1. lia.
      + intros j Hj. apply nth_paste_out; lia.
  Qed.

  Lemma complate_backward_ok c args : wf c -> length args <= csize c ->
    container_complate_backward c args =
      Ok (Cont (paste (cbase c) (coff c + (csize c - length args)) args) (coff c) (csize c)).
  Proof.
    unfold wf. intros Wc H. unfold container_complate_backward, static_size.
    destruct (Nat.eqb_spec (length args) (length (cbase c))) as [E|N].
    - rewrite remake_ok by exact E. replace (coff c + (csize c - length args)) with 0 by lia.
      unfold paste. cbn. rewrite skipn_all2 by lia. now rewrite app_nil_r.
    - rewrite complate_backward_1_ok by lia. do 2 f_equal. f_equal. lia.
  Qed.
End Results.

(** ** The shared recursion *)
Inductive yields {A S : Type} (step : S -> res (option (S * option A))) : nat -> S -> list A -> Prop :=
| yields_stop s : step s = Ok None -> yields step 0 s []
| yields_one n s s' x ys : step s = Ok (Some (s', Some x)) -> yields step n s' ys -> yields step (Datatypes.S n) s (x :: ys)
| yields_none n s s' ys : step s = Ok (Some (s', None)) -> yields step n s' ys -> yields step (Datatypes.S n) s ys.

Section Pack.
  Context {A S : Type}.
  Variables (c : cont A) (step : S -> res (option (S * option A))) (fin : list A -> res (cont A)).
  Hypothesis Wc : wf c.
  Hypothesis full : forall l, length l = static_size c -> fin l = remake c (csize c) l.

  Lemma pack_ok : forall n s ys, yields step n s ys -> forall d args, n < d -> length args <= csize c ->
    pack c step fin d s args = fin (args ++ firstn (csize c - length args) ys).
  Proof.
    unfold wf in Wc. unfold static_size in *.
    assert (STOP : forall (args ys : list A), length args = csize c \/ ys = [] ->
      args ++ firstn (csize c - length args) ys = args).
    { intros args ys [-> | ->]; rewrite ?Nat.sub_diag, ?firstn_nil; apply app_nil_r. }
    assert (HEAD : forall s ys d args, length args <= csize c ->
      (length args < csize c ->
        (o <- step s ;; match o with
          | None => fin args
          | Some (s, Some x) => pack c step fin d s (args ++ [x])
          | Some (s, None) => pack c step fin d s args
          end) = fin (args ++ firstn (csize c - length args) ys)) ->
      pack c step fin (Datatypes.S d) s args = fin (args ++ firstn (csize c - length args) ys)).
    { intros s ys d args L H. cbn [pack]. unfold static_size.
      destruct (Nat.eqb_spec (length args) (length (cbase c))) as [E|N].
      - rewrite STOP by lia. symmetry. now apply full.
      - destruct (Nat.ltb_spec (length args) (csize c)) as [C|C]; [now apply H|].
        rewrite STOP by lia. reflexivity. }
    intros n s ys Y. induction Y as [s E|n s s' x ys E Y IH|n s s' ys E Y IH]; intros [|d] args Hd L; try lia;
      apply HEAD; try exact L; intros C; rewrite E; cbn [bind].
    - rewrite STOP by (now right). reflexivity.
    - rewrite IH by (rewrite ?app_length; cbn [length]; lia). rewrite app_length. cbn [length].
      rewrite <- app_assoc. replace (csize c - length args) with (Datatypes.S (csize c - (length args + 1))) by lia.
      reflexivity.
    - apply IH; lia.
  Qed.
End Pack.

Lemma pack_complate {A S : Type} (c : cont A) (step : S -> res (option (S * option A))) n s ys d :
  wf c -> yields step n s ys -> n < d -> pack c step (container_complate c) d s [] = Ok (with_front c ys).
Proof.
  intros Wc Y Hd. rewrite (pack_ok c step _ Wc (complate_full c) n s ys Y) by (cbn; lia).
  cbn [app length]. rewrite Nat.sub_0_r. now apply complate_front.
Qed.

Definition keep {A B} (g : A -> option B) (xs : list A) : list B :=
  flat_map (fun x => match g x with Some y => [y] | None => [] end) xs.

Lemma keep_some {A B} (f : A -> B) xs : keep (fun x => Some (f x)) xs = map f xs.
Proof. induction xs as [|x t IH]; [reflexivity|]. cbn. f_equal. Qed.

Lemma keep_filter {A} (p : A -> bool) xs : keep (fun x => if p x then Some x else None) xs = filter p xs.
Proof.
  induction xs as [|x t IH]; [reflexivity|]. unfold keep in *. cbn [flat_map filter].
  destruct (p x); cbn [app]; now rewrite IH.
Qed.

Lemma keep_filter_not {A} (p : A -> bool) xs :
  keep (fun x => if p x then None else Some x) xs = filter (fun x => negb (p x)) xs.
Proof.
  induction xs as [|x t IH]; [reflexivity|]. unfold keep in *. cbn [flat_map filter].
  destruct (p x); cbn [app negb]; now rewrite IH.
Qed.

(** A pass over a range. *)
Lemma yields_range {A B} (step : nat -> res (option (nat * option B))) (g : A -> option B) (xs : list A) last :
  (forall i, i < last -> i < length xs -> step i = (x <- rd xs i ;; Ok (Some (S i, g x)))) ->
  step last = Ok None -> last <= length xs ->
  forall n first, first + n = last -> yields step n first (keep g (slice xs first last)).
Proof.
  intros H E L. induction n as [|n IH]; intros first Hn.
  - rewrite slice_nil by lia. apply yields_stop. replace first with last by lia. exact E.
  - destruct (nth_error_ex xs first ltac:(lia)) as [x Hx].
    rewrite (slice_cons xs first last x) by (assumption || lia). unfold keep. cbn [flat_map].
    specialize (H first ltac:(lia) ltac:(lia)). rewrite (rd_ok _ _ _ Hx) in H. cbn [bind] in H.
    specialize (IH (S first) ltac:(lia)). unfold keep in IH. destruct (g x) as [y|]; cbn [app].
    + eapply yields_one; eassumption.
    + eapply yields_none; eassumption.
Qed.

Lemma yields_while {A} (step : nat -> res (option (nat * option A))) (p : A -> bool) (xs : list A) last :
  (forall i, i < last -> i < length xs -> step i = (x <- rd xs i ;; Ok (if p x then Some (S i, Some x) else None))) ->
  step last = Ok None -> last <= length xs ->
  forall n first, first + n = last -> exists m, m <= n /\ yields step m first (prefix_while p (slice xs first last)).
Proof.
  intros H E L. induction n as [|n IH]; intros first Hn.
  - rewrite slice_nil by lia. exists 0. split; [lia|]. apply yields_stop. replace first with last by lia. exact E.
  - destruct (nth_error_ex xs first ltac:(lia)) as [x Hx].
    rewrite (slice_cons xs first last x) by (assumption || lia). cbn [prefix_while].
    specialize (H first ltac:(lia) ltac:(lia)). rewrite (rd_ok _ _ _ Hx) in H. cbn [bind] in H.
    destruct (IH (S first) ltac:(lia)) as (m & Hm & Y). destruct (p x).
    + exists (S m). split; [lia|]. eapply yields_one; eassumption.
    + exists 0. split; [lia|]. now apply yields_stop.
Qed.

Lemma pack_while {A} (step : nat -> res (option (nat * option A))) (p : A -> bool) (xs : list A) first last c d :
  wf c -> valid xs first last -> last - first < d ->
  (forall i, i < last -> i < length xs -> step i = (x <- rd xs i ;; Ok (if p x then Some (S i, Some x) else None))) ->
  step last = Ok None ->
  pack c step (container_complate c) d first [] = Ok (with_front c (prefix_while p (slice xs first last))).
Proof.
  intros Wc [V1 V2] Hd H E.
  destruct (yields_while step p xs last H E V2 (last - first) first ltac:(lia)) as (m & Hm & Y).
  eapply pack_complate; [exact Wc|exact Y|lia].
Qed.

Section Copying.
  Context {A : Type}.
  Implicit Types (c : cont A) (xs : list A).

  Lemma slice_rd xs first last i : valid xs first last -> i < last - first ->
    rd xs (first + i) = rd (slice xs first last) i.
  Proof. intros V H. apply rd_eq. symmetry. now apply nth_error_slice. Qed.

  Lemma ltb_neq (a b : nat) : a < b -> (a =? b) = false.
  Proof. lia. Qed.

  Lemma fx_copy_correct_lemma ra d xs first last c : wf c -> valid xs first last -> last - first < d ->
    fx_copy ra d xs first last c = Ok (with_front c (slice xs first last)).
  Proof.
    intros Wc V Hd. pose proof V as [V1 V2]. unfold fx_copy. destruct ra.
    - apply remake_from_ok; [exact Wc|apply slice_length; lia|]. intros i H1 H2. now apply slice_rd.
    - rewrite <- (map_id (slice xs first last)), <- (keep_some (fun x => x)).
      eapply pack_complate; [exact Wc| |exact Hd]. apply yields_range; [|now rewrite Nat.eqb_refl|lia..].
      intros i Hi Hl. now rewrite ltb_neq.
  Qed.

  Lemma fx_copy_n_correct_lemma ra d xs first n c : wf c -> first + n <= length xs -> n < d ->
    fx_copy_n ra d xs first n c = Ok (with_front c (slice xs first (first + n))).
  Proof.
    intros Wc V Hd. unfold fx_copy_n. destruct ra.
    - apply fx_copy_correct_lemma; [exact Wc|split; lia|lia].
    - apply pack_complate with (n := n); [exact Wc| |exact Hd]. clear d Hd. revert first V.
      induction n as [|n IH]; intros first V.
      + rewrite slice_nil by lia. now apply yields_stop.
      + destruct (nth_error_ex xs first ltac:(lia)) as [x Hx].
        rewrite (slice_cons xs first _ x) by (assumption || lia).
        apply yields_one with (s' := (S first, n)).
        * cbn [Nat.eqb]. rewrite (rd_ok _ _ _ Hx). cbn [bind]. now rewrite Nat.sub_succ, Nat.sub_0_r.
        * replace (first + S n) with (S first + n) by lia. apply IH. lia.
  Qed.

  Lemma fx_copy_if_correct_lemma d xs first last c p : wf c -> valid xs first last -> last - first < d ->
    fx_copy_if d xs first last c p = Ok (with_front c (filter p (slice xs first last))).
  Proof.
    intros Wc V Hd. pose proof V as [V1 V2]. unfold fx_copy_if. rewrite <- keep_filter.
    eapply pack_complate; [exact Wc| |exact Hd]. apply yields_range; [|now rewrite Nat.eqb_refl|lia..].
    intros i Hi Hl. now rewrite ltb_neq.
  Qed.

  Lemma prefix_while_first (p : A -> bool) xs first last r : valid xs first last ->
    is_first (fun i => ~ sat p xs i) first last r -> prefix_while p (slice xs first last) = slice xs first r.
  Proof.
    intros V (R & H1 & H2). pose proof V as [V1 V2]. revert first V1 V R H1.
    assert (G : forall n first, first + n = r -> r <= last ->
      (forall j, first <= j < r -> ~ ~ sat p xs j) -> prefix_while p (slice xs first last) = slice xs first r).
    { induction n as [|n IH]; intros first Hn R H1.
      - rewrite (slice_nil xs first r) by lia. destruct (Nat.eq_dec r last) as [->|N].
        + now rewrite slice_nil by lia.
        + specialize (H2 ltac:(lia)). destruct (nth_error_ex xs first ltac:(lia)) as [x Hx].
          rewrite (slice_cons xs first _ x) by (assumption || lia). cbn [prefix_while].
          destruct (p x) eqn:E; [|reflexivity]. exfalso. apply H2. exists x. split; [|exact E]. now replace r with first by lia.
      - destruct (nth_error_ex xs first ltac:(lia)) as [x Hx].
        rewrite (slice_cons xs first last x), (slice_cons xs first r x) by (assumption || lia). cbn [prefix_while].
        destruct (p x) eqn:E.
        + f_equal. apply IH; [lia|lia|]. intros j Hj. apply H1. lia.
        + exfalso. apply (H1 first); [lia|]. intros (y & Hy & Py). congruence. }
    intros first V1 V R H1. apply (G (r - first)); [lia|lia|exact H1].
  Qed.

  Lemma fx_copy_while_correct_lemma ra d xs first last c p : wf c -> valid xs first last -> last - first < d ->
    depth_bound (last - first) <= d ->
    fx_copy_while ra d xs first last c p = Ok (with_front c (prefix_while p (slice xs first last))).
  Proof.
    intros Wc V Hd Hb. pose proof V as [V1 V2]. unfold fx_copy_while. destruct ra.
    - destruct (@find_if_not_correct_lemma A true d xs first last p V Hb) as (r & -> & F). cbn [bind].
      rewrite (prefix_while_first p xs first last r V F). destruct F as (R & _).
      apply fx_copy_correct_lemma; [exact Wc|split; lia|lia].
    - apply pack_while; [exact Wc|exact V|exact Hd| |now rewrite Nat.eqb_refl].
      intros i Hi Hl. now rewrite ltb_neq.
  Qed.

  Lemma fx_copy_until_correct_lemma ra d xs first last c p : wf c -> valid xs first last -> last - first < d ->
    depth_bound (last - first) <= d ->
    fx_copy_until ra d xs first last c p = Ok (with_front c (prefix_while (fun x => negb (p x)) (slice xs first last))).
  Proof.
    intros Wc V Hd Hb. pose proof V as [V1 V2]. unfold fx_copy_until. destruct ra.
    - destruct (@find_if_correct_lemma A true d xs first last p V Hb) as (r & -> & F). cbn [bind].
      rewrite (prefix_while_first _ xs first last r V).
      + destruct F as (R & _). apply fx_copy_correct_lemma; [exact Wc|split; lia|lia].
      + destruct F as (R & H1 & H2). split; [exact R|]. split.
        * intros j Hj Q. apply Q. destruct (nth_error_ex xs j ltac:(lia)) as [x Hx]. exists x. split; [exact Hx|].
          destruct (p x) eqn:E; [|reflexivity]. exfalso. apply (H1 j Hj). now exists x.
        * intros Hr (x & Hx & N). destruct (H2 Hr) as (y & Hy & P). rewrite Hx in Hy. injection Hy as <-. now rewrite P in N.
    - apply pack_while; [exact Wc|exact V|exact Hd| |now rewrite Nat.eqb_refl].
      intros i Hi Hl. now rewrite ltb_neq.
  Qed.

  Lemma with_back_len c (out : list A) : wf c -> let n := Nat.min (csize c) (length out) in
    coff c + (csize c - n) + length (skipn (length out - n) out) <= length (cbase c).
  Proof. unfold wf. cbv zeta. rewrite skipn_length. lia. Qed.

  Lemma copy_backward_impl_ok xs first c : wf c ->
    forall n last args d, first + n = last -> last <= length xs -> length args <= csize c -> n < d ->
    fx_copy_backward_impl d xs first last c args =
      container_complate_backward c (skipn (n - (csize c - length args)) (slice xs first last) ++ args).
  Proof.
    intros Wc. assert (FULL : forall l, length l = static_size c -> remake c (csize c) l = container_complate_backward c l).
    { intros l E. unfold container_complate_backward. rewrite E. now rewrite Nat.eqb_refl. }
    unfold wf in Wc. induction n as [|n IH]; intros last args [|d] Hn L La Hd; try lia; cbn [fx_copy_backward_impl].
    - rewrite slice_nil by lia. rewrite skipn_nil. cbn [app]. replace (first =? last) with true by lia. cbn [negb andb].
      destruct (Nat.eqb_spec (length args) (static_size c)) as [E|N]; [now apply FULL|reflexivity].
    - destruct (Nat.eqb_spec (length args) (static_size c)) as [E|N].
      + unfold static_size in E. rewrite skipn_all2 by (rewrite slice_length; lia). now apply FULL.
      + replace (first =? last) with false by lia. cbn [negb andb].
        destruct (Nat.ltb_spec (length args) (csize c)) as [C|C].
        * destruct (nth_error_ex xs (last - 1) ltac:(lia)) as [x Hx]. rewrite (rd_ok _ _ _ Hx). cbn [bind].
          rewrite IH by (cbn [length]; lia). cbn [length].
          replace last with (S (last - 1)) at 2 by lia. rewrite (slice_snoc xs first (last - 1) x) by (assumption || lia).
          rewrite skipn_app, slice_length by lia.
          replace (S n - (csize c - length args) - (last - 1 - first)) with 0 by lia. cbn [skipn].
          rewrite <- app_assoc. cbn [app]. do 2 f_equal. f_equal. lia.
        * rewrite skipn_all2 by (rewrite slice_length; lia). reflexivity.
  Qed.

  Lemma fx_copy_backward_correct_lemma ra d xs first last c : wf c -> valid xs first last -> last - first < d ->
    fx_copy_backward ra d xs first last c = Ok (with_back c (slice xs first last)).
  Proof.
    intros Wc V Hd. pose proof V as [V1 V2]. unfold fx_copy_backward. destruct ra.
    - pose proof (with_back_len c (slice xs first last) Wc) as L. cbv zeta in L.
      unfold with_back. apply remake_indexes_ok; [now apply paste_length|].
      rewrite paste_length by exact L. unfold wf in Wc. rewrite skipn_length, !slice_length in * by lia.
      intros i Hi.
      destruct ((i <? coff c + csize c) && (coff c + csize c <=? i + csize c) && (coff c + csize c <=? i + (last - first))) eqn:E.
      + apply rd_eq. symmetry. rewrite nth_paste_in by (rewrite ?skipn_length, ?slice_length; lia).
        rewrite nth_error_skipn, nth_error_slice by lia. f_equal. lia.
      + apply rd_eq. symmetry. apply nth_paste_out; rewrite ?skipn_length, ?slice_length; lia.
    - rewrite (copy_backward_impl_ok xs first c Wc (last - first) last [] d) by (cbn [length]; lia).
      rewrite app_nil_r. cbn [length]. rewrite Nat.sub_0_r.
      rewrite complate_backward_ok; [|exact Wc|rewrite skipn_length, slice_length; lia].
      unfold with_back. rewrite skipn_length, !slice_length by lia. do 2 f_equal. f_equal; [lia|f_equal; lia].
  Qed.
End Copying.
