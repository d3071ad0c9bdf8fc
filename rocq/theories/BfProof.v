(** Proofs about the brainfuck interpreter. *)
From Coq Require Import List Arith ZArith Bool Lia.
From Verif Require Import Base BitModel BitSpec BitProof ShaModel ShaProof ByteModel ByteProof BfModel BfSpec.
Import ListNotations.
Open Scope Z_scope.

(** ** Balance *)
Lemma wf_app u : balanced u -> forall v n, is_well_formed (u ++ v) n = is_well_formed v n.
Proof.
  induction 1 as [|c w H1 H2 _ IH|u v _ IHu _ IHv]; intros z n; [reflexivity| |].
  - cbn [app is_well_formed]. replace (c =? 91) with false by lia. replace (c =? 93) with false by lia. apply IH.
  - cbn [app is_well_formed]. change (91 =? 91) with true. cbv iota. rewrite <- app_assoc. cbn [app].
    rewrite IHu. cbn [is_well_formed]. change (93 =? 91) with false. change (93 =? 93) with true. cbv iota. apply IHv.
Qed.

(** [n] open scopes: the text closes them *)
Fixpoint closes (n : nat) (w : list Z) : Prop :=
  match n with
  | O => balanced w
  | S n => exists u v, w = u ++ 93 :: v /\ balanced u /\ closes n v
  end.

Lemma closes_char n c w : c <> 91 -> c <> 93 -> closes n w -> closes n (c :: w).
Proof.
  intros H1 H2. destruct n as [|n]; cbn [closes]; [now apply bal_char|].
  intros (u & v & -> & Hu & Hv). exists (c :: u), v. split; [reflexivity|]. split; [now apply bal_char|exact Hv].
Qed.

Lemma closes_loop n u w : balanced u -> closes n w -> closes n (91 :: u ++ 93 :: w).
Proof.
  intros Hu. destruct n as [|n]; cbn [closes]; [now apply bal_loop|].
  intros (u' & v & -> & Hu' & Hv). exists (91 :: u ++ 93 :: u'), v. split; [|split; [now apply bal_loop|exact Hv]].
  cbn [app]. now rewrite <- app_assoc.
Qed.

Lemma wf_closes l : forall n, is_well_formed l n = true -> closes n l.
Proof.
  induction l as [|c l IH]; intros n H; cbn [is_well_formed] in H.
  - apply Nat.eqb_eq in H. subst. apply bal_nil.
  - destruct (Z.eqb_spec c 91) as [->|N1].
    + apply IH in H. cbn [closes] in H. destruct H as (u & v & -> & Hu & Hv). now apply closes_loop.
    + destruct (Z.eqb_spec c 93) as [->|N2].
      * destruct n as [|n]; [discriminate|]. apply IH in H. exists [], l. split; [reflexivity|]. split; [apply bal_nil|exact H].
      * apply closes_char; auto.
Qed.

Theorem is_well_formed_ok l : is_well_formed l 0 = true <-> balanced l.
Proof.
  split; [apply (wf_closes l 0)|]. intros H. rewrite <- (app_nil_r l), (wf_app l H [] 0). reflexivity.
Qed.

(** ** Texts and programs *)
Lemma text_balanced p : proper p -> balanced (text p).
Proof.
  induction p as [|c p IH|b IHb p IH]; cbn [text proper]; intros H.
  - apply bal_nil.
  - destruct c; cbn [cmd_char]; try (apply bal_char; [discriminate|discriminate|now apply IH]).
    destruct H as (N & H). apply bal_char; [| |now apply IH]; intros ->; apply N; cbn; tauto.
  - destruct H as (Hb & Hp). apply bal_loop; auto.
Qed.

Theorem balanced_text l : balanced l <-> exists p, proper p /\ text p = l.
Proof.
  split; [|intros (p & P & <-); now apply text_balanced].
  induction 1 as [|c w H1 H2 _ (p & P & T)|u v _ (p & P & T) _ (q & Q & T')].
  - now exists End.
  - assert (X : exists d, cmd_char d = c /\ match d with Other x => ~ In x commands | _ => True end).
    { destruct (Z.eq_dec c 62) as [->|N1]; [now exists Right|]. destruct (Z.eq_dec c 60) as [->|N2]; [now exists Left|].
      destruct (Z.eq_dec c 43) as [->|N3]; [now exists Inc|]. destruct (Z.eq_dec c 45) as [->|N4]; [now exists Dec|].
      destruct (Z.eq_dec c 46) as [->|N5]; [now exists Out|]. destruct (Z.eq_dec c 44) as [->|N6]; [now exists Read|].
      exists (Other c). split; [reflexivity|]. cbn. intuition congruence. }
    destruct X as (d & D & O). exists (Cmd d p). cbn [proper text]. rewrite D, T. split; [destruct d; auto|reflexivity].
  - exists (Loop p q). cbn [proper text]. rewrite T, T'. auto.
Qed.

(** ** The scans *)
Lemma end_skip u : balanced u -> forall v first n,
  find_scope_end (u ++ v) first n = find_scope_end v (first + length u) n.
Proof.
  induction 1 as [|c w H1 H2 _ IH|u v _ IHu _ IHv]; intros z first n.
  - cbn [app length]. now rewrite Nat.add_0_r.
  - cbn [app find_scope_end length]. replace (c =? 91) with false by lia. replace (c =? 93) with false by lia.
    rewrite IH. f_equal. lia.
  - cbn [app find_scope_end length]. change (91 =? 91) with true. cbv iota. rewrite <- app_assoc. cbn [app].
    rewrite IHu. cbn [find_scope_end]. change (93 =? 91) with false. change (93 =? 93) with true. cbv iota. rewrite IHv.
    f_equal. rewrite app_length. cbn [length]. lia.
Qed.

Lemma start_skip u : balanced u -> forall v first n, (length u <= first)%nat ->
  find_scope_start (rev u ++ v) first n = find_scope_start v (first - length u) n.
Proof.
  induction 1 as [|c w H1 H2 _ IH|u v _ IHu _ IHv]; intros z first n L.
  - cbn [rev app length]. now rewrite Nat.sub_0_r.
  - cbn [rev length] in *. rewrite <- app_assoc. rewrite IH by lia. cbn [app find_scope_start].
    replace (c =? 91) with false by lia. replace (c =? 93) with false by lia. f_equal. lia.
  - cbn [rev length] in *. rewrite rev_app_distr. cbn [rev]. rewrite app_length in *. cbn [length] in *.
    rewrite <- !app_assoc. rewrite IHv by lia. cbn [app find_scope_start]. change (93 =? 93) with true. cbv iota.
    rewrite IHu by lia. cbn [app find_scope_start]. change (91 =? 91) with true. change (91 =? 93) with false. cbv iota.
    f_equal. lia.
Qed.

(** ** Execution *)
Section X.
  Variables (ct ot : ity) (src output : list Z).
  Hypothesis Hout : Z.of_nat (length output) < 2 ^ 63.

  Notation cap := (length output).
  Definition ex (k first : nat) (s : bf_state) : res bf_out :=
    exec_impl ct ot src output k first (inp s) (tape s) (outp s ++ repeat 0 (cap - length (outp s))) (head s) (length (outp s)).

  Definition good (s : bf_state) : Prop :=
    0 <= head s /\ Z.of_nat (length (tape s)) < 2 ^ 63 /\ (length (outp s) <= cap)%nat.

  Lemma tape_at_cell s : good s -> tape_at (tape s) (head s) = cell s.
  Proof. intros (H & _). unfold tape_at, cell. now replace (0 <=? head s) with true by lia. Qed.

  Lemma cell_bound s x : cell s = Some x -> head s < Z.of_nat (length (tape s)).
  Proof. unfold cell. destruct (Z.ltb_spec (head s) (Z.of_nat (length (tape s)))); [auto|discriminate]. Qed.

  Lemma upd_put (l : list Z) i v : (i < length l)%nat -> upd l i v = firstn i l ++ v :: skipn (S i) l.
  Proof.
    revert i. induction l as [|x l IH]; intros i H; [cbn in H; lia|]. destruct i as [|i]; [reflexivity|].
    cbn [upd firstn skipn app]. rewrite IH by (cbn in H; lia). reflexivity.
  Qed.

  Lemma fixed_set_put s v x : good s -> cell s = Some x -> fixed_set (tape s) (head s) v = Ok (put s v).
  Proof.
    intros (H & L & _) C. apply cell_bound in C. unfold fixed_set, put. rewrite conv_i64_id by lia.
    replace ((0 <=? head s) && (head s <=? Z.of_nat (length (tape s)))) with true by lia.
    replace (head s <? Z.of_nat (length (tape s))) with true by lia. now rewrite upd_put by lia.
  Qed.

  Lemma put_length s v x : 0 <= head s -> cell s = Some x -> length (put s v) = length (tape s).
  Proof.
    intros H C. apply cell_bound in C. unfold put. rewrite app_length, firstn_length. cbn [length]. rewrite skipn_length. lia.
  Qed.

  Lemma step_good c s s1 : good s -> step ct ot cap c s = Norm s1 -> good s1.
  Proof.
    intros G H. pose proof G as (H0 & L & O). destruct c; cbn [step] in H.
    - injection H as <-. repeat split; cbn [head tape outp]; auto. apply Z.mod_pos_bound. reflexivity.
    - injection H as <-. repeat split; cbn [head tape outp]; auto. apply Z.mod_pos_bound. reflexivity.
    - destruct (cell s) eqn:C; [|discriminate]. injection H as <-. repeat split; cbn [head tape outp]; auto.
      now rewrite (put_length _ _ _ H0 C).
    - destruct (cell s) eqn:C; [|discriminate]. injection H as <-. repeat split; cbn [head tape outp]; auto.
      now rewrite (put_length _ _ _ H0 C).
    - destruct (cell s) eqn:C; [|discriminate]. destruct (Nat.ltb_spec (length (outp s)) cap); [|discriminate].
      injection H as <-. repeat split; cbn [head tape outp]; auto. rewrite app_length. cbn. lia.
    - destruct (inp s); [discriminate|]. destruct (cell s) eqn:C; [|discriminate]. injection H as <-.
      repeat split; cbn [head tape outp]; auto. now rewrite (put_length _ _ _ H0 C).
    - injection H as <-. exact G.
  Qed.

  Lemma rd_at pre c post first : src = pre ++ c :: post -> first = length pre ->
    Nat.eqb first (length src) = false /\ rd src first = Ok c.
  Proof.
    intros E ->. split; [apply Nat.eqb_neq; rewrite E, app_length; cbn; lia|].
    unfold rd. rewrite E, nth_error_app2, Nat.sub_diag by lia. reflexivity.
  Qed.

  Lemma out_pad (o : list Z) v : (length o < cap)%nat ->
    upd (o ++ repeat 0 (cap - length o)) (length o) v = (o ++ [v]) ++ repeat 0 (cap - length (o ++ [v])).
  Proof.
    intros H. rewrite upd_put by (rewrite app_length, repeat_length; lia). rewrite app_length. cbn [length].
    rewrite firstn_app, firstn_all, Nat.sub_diag, firstn_O, app_nil_r, skipn_app, skipn_all2 by lia.
    replace (cap - length o)%nat with (S (cap - (length o + 1))) by lia. cbn [repeat].
    replace (S (length o) - length o)%nat with 1%nat by lia. cbn [skipn app]. now rewrite <- app_assoc.
  Qed.

  (** '-' excepted, one command *)
  Lemma ex_cmd k pre post first s c : src = pre ++ cmd_char c :: post -> first = length pre -> good s ->
    c <> Dec -> (forall x, c = Other x -> ~ In x [62; 60; 43; 46; 44; 91; 93]) ->
    match step ct ot cap c s with
    | Norm s1 => ex (S k) first s = ex k (S first) s1
    | Err => ex (S k) first s = Ok Throw
    | Off => True
    end.
  Proof.
    intros E F G ND NO. destruct (rd_at _ _ _ _ E F) as (R1 & R2). pose proof G as (H0 & L & O).
    change (ex (S k) first s) with (exec_impl ct ot src output (S k) first (inp s) (tape s)
      (outp s ++ repeat 0 (cap - length (outp s))) (head s) (length (outp s))).
    destruct c; cbn [step cmd_char] in *; cbn [exec_impl]; rewrite R1, R2; cbn [bind].
    - change (62 =? 62) with true. cbv iota. unfold ex. cbn [inp tape outp head]. now rewrite conv_u64.
    - change (60 =? 62) with false. change (60 =? 60) with true. cbv iota. unfold ex. cbn [inp tape outp head]. now rewrite conv_u64.
    - change (43 =? 62) with false. change (43 =? 60) with false. change (43 =? 43) with true. cbv iota.
      rewrite tape_at_cell by exact G. destruct (cell s) eqn:C; [|reflexivity].
      rewrite (fixed_set_put _ _ _ G C). reflexivity.
    - congruence.
    - change (46 =? 62) with false. change (46 =? 60) with false. change (46 =? 43) with false. change (46 =? 46) with true. cbv iota.
      rewrite app_length, repeat_length. replace (length (outp s) + (cap - length (outp s)))%nat with cap by lia.
      rewrite tape_at_cell by exact G. destruct (Nat.ltb_spec (length (outp s)) cap) as [C|C].
      + replace (length (outp s) =? cap)%nat with false by (symmetry; apply Nat.eqb_neq; lia). cbn [negb].
        destruct (cell s); [|reflexivity]. unfold fixed_set. rewrite conv_i64_id by lia. rewrite app_length, repeat_length.
        replace (length (outp s) + (cap - length (outp s)))%nat with cap by lia.
        replace ((0 <=? Z.of_nat (length (outp s))) && (Z.of_nat (length (outp s)) <=? Z.of_nat cap)) with true by lia.
        replace (Z.of_nat (length (outp s)) <? Z.of_nat cap) with true by lia. cbn [bind]. rewrite Nat2Z.id, out_pad by exact C.
        unfold ex. cbn [inp tape outp head]. f_equal. rewrite app_length. cbn. lia.
      + replace (length (outp s) =? cap)%nat with true by (symmetry; apply Nat.eqb_eq; lia). cbn [negb].
        destruct (cell s); reflexivity.
    - change (44 =? 62) with false. change (44 =? 60) with false. change (44 =? 43) with false. change (44 =? 46) with false.
      change (44 =? 44) with true. cbv iota. destruct (inp s) as [|x r]; [reflexivity|].
      destruct (cell s) eqn:C; [|exact I]. rewrite (fixed_set_put _ _ _ G C). reflexivity.
    - specialize (NO c eq_refl). cbn [In] in NO.
      repeat match goal with |- context [c =? ?n] => replace (c =? n) with false by (symmetry; apply Z.eqb_neq; intuition congruence) end.
      reflexivity.
  Qed.

  (** [ *)
  Lemma ex_open k pre b post first s : src = pre ++ 91 :: b ++ 93 :: post -> balanced b -> first = length pre -> good s ->
    ex (S k) first s = match cell s with
                       | None => Ok Throw
                       | Some x => if x =? 0 then ex k (first + S (S (length b))) s else ex k (S first) s
                       end.
  Proof.
    intros E B F G. destruct (rd_at _ _ _ _ E F) as (R1 & R2). unfold ex at 1. cbn [exec_impl]. rewrite R1, R2. cbn [bind].
    change (91 =? 62) with false. change (91 =? 60) with false. change (91 =? 43) with false. change (91 =? 46) with false.
    change (91 =? 44) with false. change (91 =? 91) with true. cbv iota. rewrite tape_at_cell by exact G.
    destruct (cell s) as [x|]; [|reflexivity]. destruct (x =? 0); [|reflexivity].
    assert (S1 : skipn (S first) src = b ++ 93 :: post).
    { rewrite E, F. replace (pre ++ 91 :: b ++ 93 :: post) with ((pre ++ [91]) ++ b ++ 93 :: post) by (now rewrite <- app_assoc).
      rewrite skipn_app, skipn_all2 by (rewrite app_length; cbn; lia).
      replace (S (length pre) - length (pre ++ [91%Z]))%nat with 0%nat by (rewrite app_length; cbn [length]; lia). reflexivity. }
    rewrite S1, end_skip by exact B. cbn [find_scope_end]. change (93 =? 91) with false. change (93 =? 93) with true. cbn [bind].
    unfold ex. f_equal. lia.
  Qed.

  (** ] behaves as its [ *)
  Lemma ex_close k pre b post first s : src = pre ++ 91 :: b ++ 93 :: post -> balanced b -> first = length pre -> good s ->
    ex k (first + S (length b)) s = ex k first s.
  Proof.
    intros E B F G. destruct k as [|k]; [reflexivity|]. rewrite (ex_open k pre b post first s E B F G).
    assert (E' : src = (pre ++ 91 :: b) ++ 93 :: post) by (rewrite E, <- app_assoc; reflexivity).
    assert (F' : (first + S (length b))%nat = length (pre ++ 91 :: b)) by (rewrite app_length; cbn; lia).
    destruct (rd_at _ _ _ _ E' F') as (R1 & R2). unfold ex at 1. cbn [exec_impl]. rewrite R1, R2. cbn [bind].
    change (93 =? 62) with false. change (93 =? 60) with false. change (93 =? 43) with false. change (93 =? 46) with false.
    change (93 =? 44) with false. change (93 =? 91) with false. change (93 =? 93) with true. cbv iota. rewrite tape_at_cell by exact G.
    destruct (cell s) as [x|]; [|reflexivity]. destruct (x =? 0); cbn [negb].
    - unfold ex. f_equal. lia.
    - assert (S1 : rev (firstn (first + S (length b)) src) = rev b ++ 91 :: rev pre).
      { rewrite E', F', firstn_app, firstn_all, Nat.sub_diag, firstn_O, app_nil_r, rev_app_distr. cbn [rev]. now rewrite <- app_assoc. }
      rewrite S1, start_skip by (solve [exact B | lia]). cbn [find_scope_start]. change (91 =? 93) with false. change (91 =? 91) with true.
      cbn [bind]. unfold ex. f_equal. lia.
  Qed.

  (** '-' is one of the ignored characters *)
  Fixpoint clean (p : prog) : Prop :=
    match p with
    | End => True
    | Cmd Dec _ => False
    | Cmd (Other x) p => ~ In x [62; 60; 43; 46; 44; 91; 93] /\ clean p
    | Cmd _ p => clean p
    | Loop b p => clean b /\ clean p
    end.

  Lemma clean_balanced p : clean p -> balanced (text p).
  Proof.
    induction p as [|c p IH|b IHb p IH]; cbn [text clean]; intros H.
    - apply bal_nil.
    - destruct c; cbn [cmd_char]; try tauto; try (apply bal_char; [discriminate|discriminate|now apply IH]).
      destruct H as (N & H). apply bal_char; [| |now apply IH]; intros ->; apply N; cbn; tauto.
    - destruct H as (Hb & Hp). apply bal_loop; auto.
  Qed.

  Lemma clean_cmd c p : clean (Cmd c p) -> c <> Dec /\ (forall x, c = Other x -> ~ In x [62; 60; 43; 46; 44; 91; 93]) /\ clean p.
  Proof.
    intros H. split; [intros ->; exact H|]. split; [intros x ->; apply H|]. destruct c; cbn [clean] in H; tauto.
  Qed.

  Lemma loop_split pre b p post : src = pre ++ text (Loop b p) ++ post ->
    src = pre ++ 91 :: text b ++ 93 :: (text p ++ post) /\
    src = (pre ++ [91]) ++ text b ++ (93 :: text p ++ post) /\
    src = (pre ++ 91 :: text b ++ [93]) ++ text p ++ post.
  Proof.
    intros E. cbn [text] in E. rewrite <- !app_assoc in *. cbn [app] in *. rewrite <- !app_assoc in *. cbn [app] in *.
    rewrite <- ?app_assoc. cbn [app]. auto.
  Qed.

  Lemma complete p s o : run ct ot cap p s o -> forall pre post first, clean p -> good s ->
    src = pre ++ text p ++ post -> first = length pre ->
    match o with
    | Norm s1 => good s1 /\ exists n, forall k, ex (n + k) first s = ex k (first + length (text p)) s1
    | Err => exists n, forall k, ex (n + k) first s = Ok Throw
    | Off => True
    end.
  Proof.
    induction 1 as [s|c p s s1 o ST R IH|c p s ST|c p s ST|b p s o C R IH|b p s x s1 o C NX R1 IH1 R2 IH2|b p s x o C NX R IH NN|b p s C];
      intros pre post first CL G E F.
    - split; [exact G|]. exists 0%nat. intros k. cbn [text length]. now rewrite Nat.add_0_r.
    - apply clean_cmd in CL. destruct CL as (C1 & C2 & C3). cbn [text] in E.
      assert (ST' : forall k, ex (S k) first s = ex k (S first) s1).
      { intros k. assert (T := ex_cmd k pre (text p ++ post) first s c E F G C1 C2). now rewrite ST in T. }
      assert (G1 := step_good _ _ _ G ST).
      specialize (IH (pre ++ [cmd_char c]) post (S first) C3 G1).
      assert (E1 : src = (pre ++ [cmd_char c]) ++ text p ++ post) by (rewrite <- app_assoc; exact E).
      assert (F1 : S first = length (pre ++ [cmd_char c])) by (rewrite app_length; cbn; lia).
      specialize (IH E1 F1). destruct o as [s2| |]; [|destruct IH as (n & IH); exists (S n); intros k; cbn [Nat.add]; now rewrite ST', IH|exact I].
      destruct IH as (G2 & n & IH). split; [exact G2|]. exists (S n). intros k. cbn [Nat.add]. rewrite ST', IH. cbn [text length]. f_equal. lia.
    - apply clean_cmd in CL. destruct CL as (C1 & C2 & C3). exists 1%nat. intros k.
      assert (T := ex_cmd k pre (text p ++ post) first s c E F G C1 C2). now rewrite ST in T.
    - exact I.
    - destruct CL as (Cb & Cp). apply loop_split in E. destruct E as (E1 & _ & E3).
      assert (OP : forall k, ex (S k) first s = ex k (first + S (S (length (text b)))) s).
      { intros k. rewrite (ex_open k pre (text b) (text p ++ post) first s E1 (clean_balanced _ Cb) F G), C. reflexivity. }
      specialize (IH _ post (first + S (S (length (text b))))%nat Cp G E3).
      assert (F1 : (first + S (S (length (text b))) = length (pre ++ 91%Z :: text b ++ [93%Z]))%nat) by (rewrite app_length; cbn [length]; rewrite app_length; cbn [length]; lia).
      specialize (IH F1). destruct o as [s2| |]; [|destruct IH as (n & IH); exists (S n); intros k; cbn [Nat.add]; now rewrite OP, IH|exact I].
      destruct IH as (G2 & n & IH). split; [exact G2|]. exists (S n). intros k. cbn [Nat.add]. rewrite OP, IH.
      cbn [text length]. rewrite app_length. cbn [length]. f_equal. lia.
    - pose proof CL as (Cb & Cp). pose proof (loop_split _ _ _ _ E) as (E1 & E2 & _).
      assert (OP : forall k, ex (S k) first s = ex k (S first) s).
      { intros k. rewrite (ex_open k pre (text b) (text p ++ post) first s E1 (clean_balanced _ Cb) F G), C.
        now replace (x =? 0) with false by lia. }
      assert (F1 : S first = length (pre ++ [91])) by (rewrite app_length; cbn; lia).
      destruct (IH1 _ _ (S first) Cb G E2 F1) as (G1 & n1 & X1).
      specialize (IH2 pre post first CL G1 E F).
      assert (ST : forall k, ex (S (n1 + k)) first s = ex k first s1).
      { intros k. rewrite OP, X1. replace (S first + length (text b))%nat with (first + S (length (text b)))%nat by lia.
        apply (ex_close k pre (text b) (text p ++ post)); auto. now apply clean_balanced. }
      destruct o as [s2| |]; [|destruct IH2 as (n & IH2); exists (S (n1 + n)); intros k; cbn [Nat.add]; rewrite <- Nat.add_assoc; now rewrite ST, IH2|exact I].
      destruct IH2 as (G2 & n & IH2). split; [exact G2|]. exists (S (n1 + n)). intros k. cbn [Nat.add]. rewrite <- Nat.add_assoc. now rewrite ST, IH2.
    - destruct o as [s2| |]; [exfalso; now apply (NN s2)| |exact I].
      pose proof CL as (Cb & Cp). pose proof (loop_split _ _ _ _ E) as (E1 & E2 & _).
      assert (F1 : S first = length (pre ++ [91])) by (rewrite app_length; cbn; lia).
      destruct (IH _ _ (S first) Cb G E2 F1) as (n & X1). exists (S n). intros k. cbn [Nat.add].
      rewrite (ex_open _ pre (text b) (text p ++ post) first s E1 (clean_balanced _ Cb) F G), C.
      replace (x =? 0) with false by lia. apply X1.
    - pose proof CL as (Cb & Cp). pose proof (loop_split _ _ _ _ E) as (E1 & _ & _). exists 1%nat. intros k. cbn [Nat.add].
      now rewrite (ex_open k pre (text b) (text p ++ post) first s E1 (clean_balanced _ Cb) F G), C.
  Qed.

  Lemma sound k : forall p s pre post first r, clean p -> good s -> src = pre ++ text p ++ post -> first = length pre ->
    ex k first s = r -> r <> Fuel ->
    exists o, run ct ot cap p s o /\
      match o with
      | Norm s1 => good s1 /\ exists k1, (k1 <= k)%nat /\ ex k1 (first + length (text p)) s1 = r
      | Err => r = Ok Throw
      | Off => True
      end.
  Proof.
    induction k as [k IH] using (well_founded_induction lt_wf). intros p s pre post first r CL G E F H NF.
    destruct p as [|c p|b p].
    - exists (Norm s). split; [constructor|]. split; [exact G|]. exists k. split; [lia|]. cbn [text length]. now rewrite Nat.add_0_r.
    - destruct k as [|k]; [cbn in H; congruence|].
      apply clean_cmd in CL. destruct CL as (C1 & C2 & C3). cbn [text] in E.
      assert (T := ex_cmd k pre (text p ++ post) first s c E F G C1 C2).
      destruct (step ct ot cap c s) as [s1| |] eqn:ST.
      + assert (G1 := step_good _ _ _ G ST).
        assert (E1 : src = (pre ++ [cmd_char c]) ++ text p ++ post) by (rewrite <- app_assoc; exact E).
        assert (F1 : S first = length (pre ++ [cmd_char c])) by (rewrite app_length; cbn; lia).
        destruct (IH k (Nat.lt_succ_diag_r k) p s1 _ post (S first) r C3 G1 E1 F1) as (o & R & D); [congruence|exact NF|].
        exists o. split; [now apply run_cmd with s1|]. destruct o as [s2| |]; auto.
        destruct D as (G2 & k1 & L & D). split; [exact G2|]. exists k1. split; [lia|]. rewrite <- D. cbn [text length]. f_equal. lia.
      + exists Err. split; [now apply run_cmd_err|congruence].
      + exists Off. split; [now apply run_cmd_off|exact I].
    - destruct k as [|k]; [cbn in H; congruence|].
      pose proof CL as (Cb & Cp). pose proof (loop_split _ _ _ _ E) as (E1 & E2 & E3).
      rewrite (ex_open k pre (text b) (text p ++ post) first s E1 (clean_balanced _ Cb) F G) in H.
      destruct (cell s) as [x|] eqn:C; [|exists Err; split; [now apply run_loop_err|congruence]].
      destruct (Z.eqb_spec x 0) as [->|NX].
      + assert (F1 : (first + S (S (length (text b))) = length (pre ++ 91%Z :: text b ++ [93%Z]))%nat) by (rewrite app_length; cbn [length]; rewrite app_length; cbn [length]; lia).
        destruct (IH k (Nat.lt_succ_diag_r k) p s _ post _ r Cp G E3 F1) as (o & R & D); [exact H|exact NF|].
        exists o. split; [now apply run_loop_out|]. destruct o as [s2| |]; auto.
        destruct D as (G2 & k1 & L & D). split; [exact G2|]. exists k1. split; [lia|]. rewrite <- D. cbn [text length].
        rewrite app_length. cbn [length]. f_equal. lia.
      + assert (F1 : S first = length (pre ++ [91])) by (rewrite app_length; cbn; lia).
        destruct (IH k (Nat.lt_succ_diag_r k) b s _ _ (S first) r Cb G E2 F1) as (o & R & D); [exact H|exact NF|].
        destruct o as [s1| |].
        * destruct D as (G1 & k1 & L & D). replace (S first + length (text b))%nat with (first + S (length (text b)))%nat in D by lia.
          rewrite (ex_close k1 pre (text b) (text p ++ post) first s1 E1 (clean_balanced _ Cb) F G1) in D.
          destruct (IH k1 ltac:(lia) (Loop b p) s1 pre post first r CL G1 E F D NF) as (o & R2 & D2).
          exists o. split; [now apply run_loop_in with x s1|]. destruct o as [s2| |]; auto.
          destruct D2 as (G2 & k2 & L2 & D2). split; [exact G2|]. exists k2. split; [lia|exact D2].
        * exists Err. split; [apply run_loop_stop with x; auto; discriminate|exact D].
        * exists Off. split; [apply run_loop_stop with x; auto; discriminate|exact I].
  Qed.
End X.

(** ** exec *)
Lemma strike_clean p : proper p -> clean (strike_dec p) /\ text (strike_dec p) = text p.
Proof.
  induction p as [|c p IH|b IHb p IH]; cbn [proper strike_dec]; intros H; [split; constructor| |].
  - destruct c; try (destruct (IH H) as (I1 & I2); cbn [clean text cmd_char]; rewrite I2; split; [exact I1|reflexivity]).
    + destruct (IH H) as (I1 & I2). cbn [clean text cmd_char]. rewrite I2. split; [|reflexivity]. split; [|exact I1].
      cbn. intuition discriminate.
    + destruct H as (N & H). destruct (IH H) as (I1 & I2). cbn [clean text cmd_char]. rewrite I2. split; [|reflexivity]. split; [|exact I1].
      intros X. apply N. cbn in *. tauto.
  - destruct H as (Hb & Hp). destruct (IHb Hb) as (A1 & A2). destruct (IH Hp) as (B1 & B2). cbn [clean text]. rewrite A2, B2. auto.
Qed.

Lemma strike_id p : without_dec p -> strike_dec p = p.
Proof.
  induction p as [|c p IH|b IHb p IH]; cbn [without_dec strike_dec]; intros H; [reflexivity| |].
  - destruct c; try tauto; now rewrite IH.
  - destruct H. now rewrite IHb, IH.
Qed.

Definition bf_result (output : list Z) (s : bf_state) : list Z := outp s ++ skipn (length (outp s)) output.

Section Top.
  Variables (ct ot : ity) (output input : list Z) (cells : nat) (p : prog).
  Hypothesis Hout : Z.of_nat (length output) < 2 ^ 63.
  Hypothesis Hcells : Z.of_nat cells < 2 ^ 63.
  Hypothesis Hp : proper p.

  Notation s0 := (start cells input).
  Notation cap := (length output).

  Lemma start_good : good output s0.
  Proof. unfold good, start. cbn [head tape outp length]. rewrite repeat_length. lia. Qed.

  Lemma exec_ex k : bf_exec ct ot (text p) output k cells input = ex ct ot (text p) output k 0 s0.
  Proof. unfold bf_exec, ex, start. cbn [inp tape outp head length app]. now rewrite Nat.sub_0_r. Qed.

  Lemma text_split : text p = [] ++ text (strike_dec p) ++ [].
  Proof. cbn [app]. rewrite app_nil_r. symmetry. now apply strike_clean. Qed.

  Lemma ex_end k s : good output s -> ex ct ot (text p) output (S k) (0 + length (text (strike_dec p))) s = Ok (Done (bf_result output s)).
  Proof.
    intros (_ & _ & O). cbn [Nat.add]. unfold ex. cbn [exec_impl]. rewrite (proj2 (strike_clean p Hp)), Nat.eqb_refl.
    rewrite app_length, repeat_length. replace (Nat.min (length (outp s)) (length (outp s) + (cap - length (outp s))))%nat with (length (outp s)) by lia.
    rewrite firstn_app, firstn_all, Nat.sub_diag, firstn_O, app_nil_r. unfold fixed_copy, bf_result.
    now rewrite firstn_all2 by exact O.
  Qed.

  Theorem exec_complete :
    (forall s, run ct ot cap (strike_dec p) s0 (Norm s) ->
      exists n, forall k, (n <= k)%nat -> bf_exec ct ot (text p) output k cells input = Ok (Done (bf_result output s))) /\
    (run ct ot cap (strike_dec p) s0 Err ->
      exists n, forall k, (n <= k)%nat -> bf_exec ct ot (text p) output k cells input = Ok Throw).
  Proof.
    destruct (strike_clean p Hp) as (CL & _). split.
    - intros s R. destruct (complete ct ot (text p) output Hout _ _ _ R [] [] 0%nat CL start_good text_split eq_refl) as (G & n & X).
      exists (S n). intros k Hk. replace k with (n + S (k - S n))%nat by lia. rewrite exec_ex, X. now apply ex_end.
    - intros R. destruct (complete ct ot (text p) output Hout _ _ _ R [] [] 0%nat CL start_good text_split eq_refl) as (n & X).
      exists n. intros k Hk. replace k with (n + (k - n))%nat by lia. now rewrite exec_ex, X.
  Qed.

  Theorem exec_sound k :
    (forall o, bf_exec ct ot (text p) output k cells input = Ok (Done o) ->
      (exists s, run ct ot cap (strike_dec p) s0 (Norm s) /\ o = bf_result output s) \/ run ct ot cap (strike_dec p) s0 Off) /\
    (bf_exec ct ot (text p) output k cells input = Ok Throw ->
      run ct ot cap (strike_dec p) s0 Err \/ run ct ot cap (strike_dec p) s0 Off) /\
    (bf_exec ct ot (text p) output k cells input = UB -> run ct ot cap (strike_dec p) s0 Off).
  Proof.
    destruct (strike_clean p Hp) as (CL & _). rewrite exec_ex.
    assert (X : forall r, ex ct ot (text p) output k 0 s0 = r -> r <> Fuel ->
      (exists s, run ct ot cap (strike_dec p) s0 (Norm s) /\ r = Ok (Done (bf_result output s))) \/
      (run ct ot cap (strike_dec p) s0 Err /\ r = Ok Throw) \/ run ct ot cap (strike_dec p) s0 Off).
    { intros r H NF. destruct (sound ct ot (text p) output Hout k _ s0 [] [] 0%nat r CL start_good text_split eq_refl H NF) as (o & R & D).
      destruct o as [s| |]; [left|right; left; auto|right; right; auto].
      destruct D as (G & k1 & L & D). exists s. split; [exact R|].
      destruct k1 as [|k1]; [cbn in D; congruence|]. rewrite ex_end in D by exact G. congruence. }
    split; [|split].
    - intros o H. destruct (X _ H) as [(s & R & E)|[(R & E)|R]]; [discriminate|left; exists s; split; [exact R|congruence]|discriminate|right; exact R].
    - intros H. destruct (X _ H) as [(s & R & E)|[(R & E)|R]]; [discriminate|discriminate|left; exact R|right; exact R].
    - intros H. destruct (X _ H) as [(s & R & E)|[(R & E)|R]]; [discriminate|discriminate|discriminate|exact R].
  Qed.
End Top.

(** ** Jumps *)
Lemma open_split w : balanced w -> forall pre rest, w = pre ++ 91 :: rest ->
  exists b post, rest = b ++ 93 :: post /\ balanced b.
Proof.
  induction 1 as [|c w H1 H2 _ IH|u v Bu IHu _ IHv]; intros pre rest E.
  - destruct pre; discriminate.
  - destruct pre as [|x pre]; cbn [app] in E; injection E as E1 E2; [congruence|eauto].
  - destruct pre as [|x pre]; cbn [app] in E; [injection E as E2; exists u, v; auto|]. injection E as E1 E2.
    assert (X : u ++ 93 :: v = pre ++ 91 :: rest) by exact E2. apply app_eq_app in X. destruct X as (z & [(X1 & X2) | (X1 & X2)]).
    + destruct z as [|y z].
      * cbn [app] in X2. discriminate.
      * cbn [app] in X2. injection X2 as <- X2. destruct (IHu _ _ X1) as (b & post & -> & B). exists b, (post ++ 93 :: v).
        split; [|exact B]. rewrite X2, <- app_assoc. reflexivity.
    + destruct z as [|y z]; cbn [app] in X2; [discriminate|]. injection X2 as <- X2. eauto.
Qed.

Lemma close_split w : balanced w -> forall pre rest, w = pre ++ 93 :: rest ->
  exists pre1 b, pre = pre1 ++ 91 :: b /\ balanced b.
Proof.
  induction 1 as [|c w H1 H2 _ IH|u v Bu IHu _ IHv]; intros pre rest E.
  - destruct pre; discriminate.
  - destruct pre as [|x pre]; cbn [app] in E; injection E as E1 E2; [congruence|].
    destruct (IH _ _ E2) as (q & b & -> & B). exists (x :: q), b. auto.
  - destruct pre as [|x pre]; cbn [app] in E; [discriminate|]. injection E as <- E2.
    apply app_eq_app in E2. destruct E2 as (z & [(X1 & X2) | (X1 & X2)]).
    + destruct z as [|y z].
      * rewrite app_nil_r in X1. subst. exists [], pre. auto.
      * cbn [app] in X2. injection X2 as <- X2. destruct (IHu _ _ X1) as (q & b & -> & B). exists (91 :: q), b. auto.
    + destruct z as [|y z]; cbn [app] in X2.
      * rewrite app_nil_r in X1. subst. exists [], u. auto.
      * injection X2 as <- X2. destruct (IHv _ _ X2) as (q & b & -> & B). exists (91 :: u ++ 93 :: q), b. split; [|exact B].
        rewrite X1. cbn [app]. now rewrite <- app_assoc.
Qed.

Theorem jump_end src : is_well_formed src 0 = true -> forall pre rest, src = pre ++ 91 :: rest ->
  exists b post, rest = b ++ 93 :: post /\ balanced b /\
    find_scope_end (skipn (S (length pre)) src) (S (length pre)) 0 = Ok (length (pre ++ 91 :: b)).
Proof.
  intros W pre rest E. apply is_well_formed_ok in W. destruct (open_split _ W _ _ E) as (b & post & -> & B).
  exists b, post. split; [reflexivity|]. split; [exact B|]. subst src.
  replace (skipn (S (length pre)) (pre ++ 91 :: b ++ 93 :: post)) with (b ++ 93 :: post).
  - rewrite end_skip by exact B. cbn [find_scope_end]. change (93 =? 91) with false. change (93 =? 93) with true. cbv iota.
    f_equal. rewrite app_length. cbn [length]. lia.
  - rewrite skipn_app, skipn_all2 by lia. replace (S (length pre) - length pre)%nat with 1%nat by lia. reflexivity.
Qed.

Theorem jump_start src : is_well_formed src 0 = true -> forall pre rest, src = pre ++ 93 :: rest ->
  exists pre1 b, pre = pre1 ++ 91 :: b /\ balanced b /\
    find_scope_start (rev (firstn (length pre) src)) (length pre - 1) 0 = Ok (length pre1).
Proof.
  intros W pre rest E. apply is_well_formed_ok in W. destruct (close_split _ W _ _ E) as (pre1 & b & E1 & B).
  exists pre1, b. split; [exact E1|]. split; [exact B|]. rewrite E, firstn_app, firstn_all, Nat.sub_diag, firstn_O, app_nil_r, E1.
  rewrite rev_app_distr. cbn [rev]. rewrite <- app_assoc, app_length. cbn [length app].
  rewrite start_skip by (exact B || lia). cbn [find_scope_start]. change (91 =? 93) with false. change (91 =? 91) with true. cbv iota.
  f_equal. lia.
Qed.

Lemma off_reads ct ot cap p s o : run ct ot cap p s o -> o = Off -> In 44 (text p).
Proof.
  induction 1 as [s|c p s s1 o ST R IH|c p s ST|c p s ST|b p s o C R IH|b p s x s1 o C NX R1 IH1 R2 IH2|b p s x o C NX R IH NN|b p s C];
    intros E; try discriminate; cbn [text].
  - right. auto.
  - left. destruct c; cbn [step] in ST; try discriminate; try (destruct (cell s); discriminate).
    + destruct (cell s); [destruct (length (outp s) <? cap)%nat|]; discriminate.
    + reflexivity.
  - right. apply in_or_app. right. right. auto.
  - exact (IH2 E).
  - right. apply in_or_app. left. auto.
Qed.

Theorem exec_safe ct ot src output : is_well_formed src 0 = true -> ~ In 44 src ->
  Z.of_nat (length output) < 2 ^ 63 -> forall cells input k, Z.of_nat cells < 2 ^ 63 ->
  bf_exec ct ot src output k cells input <> UB.
Proof.
  intros W N Ho cells input k Hc H. apply is_well_formed_ok, balanced_text in W. destruct W as (p & P & <-).
  apply (exec_sound ct ot output input cells p Ho Hc P) in H. apply off_reads in H; [|reflexivity].
  now rewrite (proj2 (strike_clean p P)) in H.
Qed.

Theorem exec_runs ct ot output input cells p : Z.of_nat (length output) < 2 ^ 63 -> Z.of_nat cells < 2 ^ 63 ->
  proper p -> without_dec p ->
  (forall s, run ct ot (length output) p (start cells input) (Norm s) ->
    exists n, forall k, (n <= k)%nat ->
      bf_exec ct ot (text p) output k cells input = Ok (Done (outp s ++ skipn (length (outp s)) output))) /\
  (run ct ot (length output) p (start cells input) Err ->
    exists n, forall k, (n <= k)%nat -> bf_exec ct ot (text p) output k cells input = Ok Throw).
Proof.
  intros Ho Hc P W. assert (X := exec_complete ct ot output input cells p Ho Hc P). rewrite (strike_id p W) in X. exact X.
Qed.

Theorem exec_only ct ot output input cells p : Z.of_nat (length output) < 2 ^ 63 -> Z.of_nat cells < 2 ^ 63 ->
  proper p -> without_dec p -> forall k,
  (forall o, bf_exec ct ot (text p) output k cells input = Ok (Done o) ->
    (exists s, run ct ot (length output) p (start cells input) (Norm s) /\ o = outp s ++ skipn (length (outp s)) output) \/
    run ct ot (length output) p (start cells input) Off) /\
  (bf_exec ct ot (text p) output k cells input = Ok Throw ->
    run ct ot (length output) p (start cells input) Err \/ run ct ot (length output) p (start cells input) Off) /\
  (bf_exec ct ot (text p) output k cells input = UB -> run ct ot (length output) p (start cells input) Off).
Proof.
  intros Ho Hc P W k. assert (X := exec_sound ct ot output input cells p Ho Hc P k). rewrite (strike_id p W) in X. exact X.
Qed.

(** Writing '-' for a comment character changes nothing *)
Theorem exec_minus ct ot output input cells p : Z.of_nat (length output) < 2 ^ 63 -> Z.of_nat cells < 2 ^ 63 -> proper p ->
  (forall s, run ct ot (length output) (strike_dec p) (start cells input) (Norm s) ->
    exists n, forall k, (n <= k)%nat ->
      bf_exec ct ot (text p) output k cells input = Ok (Done (outp s ++ skipn (length (outp s)) output))) /\
  (run ct ot (length output) (strike_dec p) (start cells input) Err ->
    exists n, forall k, (n <= k)%nat -> bf_exec ct ot (text p) output k cells input = Ok Throw).
Proof. intros. now apply exec_complete. Qed.

Theorem minus_wrong : exists p s, proper p /\ run u8 u8 1 p (start 5 []) (Norm s) /\ outp s = [1] /\
  forall k, bf_exec u8 u8 (text p) [7] k 5 [] = Fuel \/ bf_exec u8 u8 (text p) [7] k 5 [] = Ok (Done [2]).
Proof.
  exists (Cmd Inc (Cmd Inc (Cmd Dec (Cmd Out End)))), (BfState [1; 0; 0; 0; 0] 0 [] [1]).
  split; [cbn; tauto|]. split; [|split; [reflexivity|]].
  - eapply run_cmd; [reflexivity|]. eapply run_cmd; [reflexivity|]. eapply run_cmd; [reflexivity|].
    eapply run_cmd; [reflexivity|]. apply run_end.
  - intros k. do 5 (destruct k as [|k]; [now left|]). now right.
Qed.
