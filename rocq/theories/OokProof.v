(** Proofs about the translations into Brainfuck. *)
From Coq Require Import List Arith Bool ZArith Lia.
From Verif Require Import Base BitModel WordModel CharModel CharSpec CharProof WeedModel WeedSpec WeedProof2 WeedProof3 BfModel OokModel OokSpec.
Import ListNotations.
Local Open Scope nat_scope.

Lemma chars_inj l : forall m, map IChar l = map IChar m -> l = m.
Proof.
  induction l as [|x l IH]; intros [|z m] Q; try discriminate; [reflexivity|]. cbn [map] in Q. injection Q as -> Q. f_equal. auto.
Qed.

Section Peg.
  Variable s : list Z.

  Lemma alts_some l : forall e i x, peg s (fold_left EAlt l e) i (Some x) ->
    exists l1 f l2, e :: l = l1 ++ f :: l2 /\ peg s f i (Some x) /\ Forall (fun g => peg s g i None) l1.
  Proof.
    induction l as [|f l IH]; intros e i x H; cbn [fold_left] in H.
    - exists [], e, []. auto.
    - destruct (IH _ _ _ H) as (l1&g&l2&E&P&F). destruct l1 as [|h l1]; cbn [app] in E; injection E as <- ->.
      + cbn [peg] in P. destruct P as [(x'&_&P)|[N P]].
        * exists [], e, (f :: l2). auto.
        * exists [e], f, l2. auto.
      + inversion_clear F. cbn [peg] in H0. destruct H0 as [(x'&E'&_)|[N P']]; [discriminate|].
        exists (e :: f :: l1), g, l2. auto.
  Qed.
  Lemma alts_none l : forall e i, peg s (fold_left EAlt l e) i None -> Forall (fun g => peg s g i None) (e :: l).
  Proof.
    induction l as [|f l IH]; intros e i H; cbn [fold_left] in H; [auto|].
    pose proof (IH _ _ H) as F. inversion_clear F. cbn [peg] in H0. destruct H0 as [(x&E&_)|[N P]]; [discriminate|]. auto.
  Qed.

  Lemma skipn_cons i (b : Z) : nth_error s i = Some b -> skipn i s = b :: skipn (S i) s.
  Proof.
    revert i. induction s as [|x l IH]; intros [|i] H; try discriminate.
    - injection H as ->. reflexivity.
    - cbn [nth_error] in H. cbn [skipn]. apply IH in H. exact H.
  Qed.
  Lemma skipn_add (n i : nat) : skipn n (skipn i s) = skipn (i + n) s.
  Proof.
    revert i. induction s as [|x l IH]; intros [|i]; cbn [skipn Nat.add]; try reflexivity.
    - apply skipn_nil.
    - apply IH.
  Qed.
  Lemma text_some t y i x : text_peg s t y i (Some x) -> skipn i s = t ++ skipn (fst x) s /\ fst x = i + length t.
  Proof.
    intros [[E H]|[_ H]]; [|discriminate]. injection H as ->. cbn [fst].
    rewrite <- (firstn_skipn (length t) (skipn i s)) at 1. rewrite E, skipn_add. auto.
  Qed.
  Lemma text_none t y i : text_peg s t y i None -> forall r, skipn i s <> t ++ r.
  Proof.
    intros [[_ H]|[N _]] r E; [discriminate|]. apply N. rewrite E, firstn_app, Nat.sub_diag, firstn_all. cbn [firstn]. apply app_nil_r.
  Qed.
  Lemma text_yes t y i r : skipn i s = t ++ r -> text_peg s t y i (Some (i + length t, y)).
  Proof.
    intros E. left. split; [|reflexivity]. rewrite E, firstn_app, Nat.sub_diag, firstn_all. cbn [firstn]. apply app_nil_r.
  Qed.
  Lemma after i (l r : list Z) : skipn i s = l ++ r -> skipn (i + length l) s = r.
  Proof. intros E. rewrite <- skipn_add, E, skipn_app, skipn_all, Nat.sub_diag. reflexivity. Qed.

  (** ** A table *)
  Variables (L : list (Z * pexp)) (word : list Z -> Z -> Prop).
  Hypothesis H1 : forall c e i j y, In (c, e) L -> peg s e i (Some (j, y)) -> exists w, word w c /\ skipn i s = w ++ skipn j s.
  Hypothesis H2 : forall w c, word w c -> exists e, In (c, e) L /\ forall i r, peg s e i None -> skipn i s <> w ++ r.
  Hypothesis H0 : L <> [].

  Lemma token_reps i ys j : reps (peg s (token L)) None i ys j ->
    exists out, translated word (skipn i s) out /\ ys = map (fun c => [IChar c]) out.
  Proof.
    intros R. remember (@None nat) as b0 eqn:B. revert B. induction R as [i|b i NB P|b i m y ys l NB P R IH]; intros B; [discriminate| |].
    - exists []. split; [|reflexivity].
      assert (F : Forall (fun g => peg s g i None) (map (fun p => EReplace (VChar (fst p)) (snd p)) L ++ [EReplace (VChar 32) (EPrim PAny)])).
      { destruct L as [|p L']; [contradiction|]. exact (alts_none _ _ _ P). }
      apply Forall_app in F. destruct F as [_ F]. inversion_clear F. cbn [peg prim_peg] in H.
      destruct H as [(x&z&_&E)|[[(c&_&_&E)|[N _]] _]]; [discriminate|discriminate|].
      destruct (nth_error s i) as [c|] eqn:E; [exfalso; exact (N c eq_refl I)|].
      apply nth_error_None in E. rewrite skipn_all2 by exact E. constructor.
    - subst b. destruct (IH eq_refl) as (out&T&->). cbn [option_map] in *.
      assert (A : exists l1 f l2, map (fun p => EReplace (VChar (fst p)) (snd p)) L ++ [EReplace (VChar 32) (EPrim PAny)] = l1 ++ f :: l2 /\
                 peg s f i (Some (m, y)) /\ Forall (fun g => peg s g i None) l1).
      { destruct L as [|p L']; [contradiction|]. exact (alts_some _ _ _ _ P). }
      destruct A as (l1&f&l2&E&Pf&F).
      destruct l2 as [|g l2 _] using rev_ind.
      + apply app_inj_tail in E. destruct E as [<- <-]. cbn [peg prim_peg] in Pf.
        destruct Pf as [(x&z&[(c&N&_&Q)|[_ Q]]&Q')|[_ Q]]; try discriminate. injection Q as -> ->. injection Q' as -> ->.
        exists (32%Z :: out). split; [|reflexivity]. rewrite (skipn_cons _ _ N). apply tr_skip; [|exact T].
        intros w c' r Hw. rewrite <- (skipn_cons _ _ N). destruct (H2 _ _ Hw) as (e&I'&He). apply He.
        rewrite Forall_forall in F. specialize (F (EReplace (VChar c') e)). cbn [peg] in F.
        destruct F as [(x&z&_&Q)|[Q _]]; [|discriminate|exact Q].
        apply in_map_iff. exists (c', e). auto.
      + rewrite app_comm_cons, app_assoc in E. apply app_inj_tail in E. destruct E as [E _].
        assert (I' : In f (map (fun p => EReplace (VChar (fst p)) (snd p)) L)) by (rewrite E; apply in_elt).
        apply in_map_iff in I'. destruct I' as ([c e]&<-&I'). cbn [peg fst snd] in Pf.
        destruct Pf as [(x&z&Pe&Q)|[_ Q]]; [|discriminate]. injection Q as -> ->.
        destruct (H1 _ _ _ _ _ I' Pe) as (w&Mw&Ew). exists (c :: out). split; [|reflexivity].
        rewrite Ew. apply tr_word; [exact Mw|exact T].
  Qed.

  Hypothesis HW : wf word_digits (token L) /\ nullable (token L) = false /\ set_size (token L) = 0 /\ wide_int (token L) = false
    /\ ty_of (token L) = TBase BChar /\ no_str (token L) = true.
  Lemma table_lemma d k result : 0 < d -> length s < k -> 1 <= length result ->
    exists out, translated word s out /\
      to_brainfuck L d k s result = Ok (filled out result, true).
  Proof.
    intros D K N. destruct HW as (W1&W2&W3&W4&W5&W6).
    set (e := EStar (ELim (length result) Discard (token L))).
    assert (We : wf word_digits e) by (cbn [wf e]; auto).
    assert (De : Nat.log2_up (set_size e) < d) by (cbn [set_size e]; rewrite W3; exact D).
    pose proof (weed_matches_lemma s d k e 0 We De K ltac:(lia)) as A.
    unfold to_brainfuck, parse. change (fun t radix => match WordModel.integer_digits t radix with Ok n => n | _ => 0%Z end) with word_digits.
    fold e. destruct (eval s d k word_digits e 0) as [r| |] eqn:E.
    - destruct A as (_&_&o&P&_&O). destruct o as [[j y]|].
      2:{ exfalso. unfold e in P. cbn [peg] in P. destruct P as (ys&j&_&Q). discriminate Q. }
      destruct O as [O1 O2].
      assert (Te : ty_of e = TBase BStr) by (unfold e, times_of; cbn [ty_of limit_of]; unfold times_of; cbn [limit_of ty_of]; now rewrite W5).
      assert (Se : no_str e = true) by (unfold e; cbn [no_str]; exact W6).
      assert (NT : ty_of e <> TOther) by (rewrite Te; discriminate).
      destruct (weed_attributes_lemma s d k e 0 r We De K (Nat.le_0_l _) NT Se E O1) as [T P'].
      rewrite Te in T.
      destruct (at_ r) as [|v|l|] eqn:Ea; cbn [typed] in T; try contradiction. destruct v as [c|t z|l|t l]; cbn [val_ty] in T; try discriminate.
      unfold e in P'. cbn [peg most kept items val_items] in P'. destruct P' as (ys&j'&R&Q). injection Q as _ Q.
      destruct (token_reps _ _ _ R) as (out&Tr&->). exists out. cbn [skipn] in Tr. split; [exact Tr|].
      cbn [bind]. rewrite O1, Ea. cbn [join_val].
      assert (El : l = firstn (length result) out).
      { rewrite firstn_map in Q. assert (Hc : forall m : list Z, concat (map (fun c => [IChar c]) m) = map IChar m) by
          (induction m as [|x m IH]; cbn [map concat app]; [reflexivity|now rewrite IH]).
        rewrite Hc in Q. apply chars_inj. congruence. }
      unfold fixed_copy, filled. rewrite El, firstn_firstn, Nat.min_id. do 3 f_equal.
      rewrite firstn_length. destruct (Nat.le_gt_cases (length result) (length out)).
      + rewrite Nat.min_l, skipn_all, skipn_all2 by lia. reflexivity.
      + now rewrite Nat.min_r by lia.
    - cbn [wide_int e] in A. congruence.
    - destruct A.
  Qed.
End Peg.

(** * Uniqueness *)
Lemma translated_unique (word : list Z -> Z -> Prop) s out out' :
  (forall w c, word w c -> w <> []) ->
  (forall w c r w' c' r', word w c -> word w' c' -> w ++ r = w' ++ r' -> w = w' /\ c = c') ->
  translated word s out -> translated word s out' -> out = out'.
Proof.
  intros NE PF T. revert out'. induction T as [|w c rest out Hw T IH|b rest out Hb T IH]; intros out' T'.
  - inversion T' as [|w c rest out Hw T1 E| ]; [reflexivity|]. apply app_eq_nil in E. destruct E as [-> _]. now apply NE in Hw.
  - remember (w ++ rest) as l eqn:E. destruct T' as [|w' c' rest' out' Hw' T'|b' rest' out' Hb' T'].
    + symmetry in E. apply app_eq_nil in E. destruct E as [-> _]. now apply NE in Hw.
    + destruct (PF _ _ _ _ _ _ Hw' Hw E) as [-> ->]. apply app_inv_head in E. subst rest'. f_equal. auto.
    + exfalso. exact (Hb' _ _ _ Hw E).
  - remember (b :: rest) as l eqn:E. destruct T' as [|w' c' rest' out' Hw' T'|b' rest' out' Hb' T'].
    + discriminate.
    + exfalso. exact (Hb _ _ _ Hw' eq_refl).
    + injection E as -> ->. f_equal. auto.
Qed.
Lemma translated_ext (word word' : list Z -> Z -> Prop) s out : (forall w c, word w c <-> word' w c) -> translated word s out -> translated word' s out.
Proof.
  intros H T. induction T as [|w c rest out Hw T IH|b rest out Hb T IH]; [constructor| |].
  - apply tr_word; [now apply H|exact IH].
  - apply tr_skip; [|exact IH]. intros w c r Hw. apply (Hb w c). now apply H.
Qed.

(** * Ook *)
Section Ook.
  Variable s : list Z.
  Hypothesis HC : Forall character s.

  Lemma is_sp_some i c : nth_error s i = Some c -> isspace c = true <-> Space c.
  Proof. intros E. apply isspace_lemma. rewrite Forall_forall in HC. apply HC. eapply nth_error_In; eauto. Qed.

  Lemma spaces_some i ys j : reps (peg s (EPrim (PClass isspace true))) None i ys j ->
    exists sp, Forall Space sp /\ skipn i s = sp ++ skipn j s.
  Proof.
    intros R. remember (@None nat) as b0 eqn:B. revert B. induction R as [i|b i NB P|b i m y ys l NB P R IH]; intros B; [discriminate| |].
    - exists []. auto.
    - subst b. destruct (IH eq_refl) as (sp&F&E). destruct P as [(c&N&S'&Q)|[_ Q]]; [|discriminate]. injection Q as -> _.
      exists (c :: sp). split; [constructor; [now apply (is_sp_some i)|exact F]|]. rewrite (skipn_cons _ _ _ N), E. reflexivity.
  Qed.
  Lemma spaces_yes sp : forall i x r, Forall Space sp -> ~ Space x -> skipn i s = sp ++ x :: r ->
    exists ys, reps (peg s (EPrim (PClass isspace true))) None i ys (i + length sp).
  Proof.
    induction sp as [|c sp IH]; intros i x r F X E; cbn [app length] in *.
    - exists []. rewrite Nat.add_0_r. apply reps_end; [discriminate|]. right. split; [|reflexivity]. intros c N S'.
      pose proof (skipn_cons _ _ _ N) as E'. rewrite E in E'. injection E' as <- _. apply X. now apply (is_sp_some i).
    - inversion_clear F.
      assert (N : nth_error s i = Some c).
      { rewrite <- (firstn_skipn i s). assert (i < length s).
        { assert (L : length (skipn i s) = S (length (sp ++ x :: r))) by now rewrite E. rewrite skipn_length in L. lia. }
        rewrite nth_error_app2; rewrite firstn_length, Nat.min_l by lia; [|lia]. now rewrite Nat.sub_diag, E. }
      pose proof (skipn_cons _ _ _ N) as E'. rewrite E in E'. injection E' as E'.
      destruct (IH (S i) x r H0 X (eq_sym E')) as (ys&R). exists ([] :: ys).
      replace (i + S (length sp)) with (S i + length sp) by lia.
      apply reps_more with (S i); [discriminate| |exact R]. left. exists c. split; [exact N|]. split; [now apply (is_sp_some i)|reflexivity].
  Qed.

  Lemma ook_some p q i j y : peg s (ook_pair p q) i (Some (j, y)) -> exists sp, Forall Space sp /\ skipn i s = (ook p ++ sp ++ ook q) ++ skipn j s.
  Proof.
    intros P. cbn [peg ook_pair] in P.
    destruct P as [(j1&y1&l&z&P1&P2&Q)|[(?&?&_&_&Q)|[_ Q]]]; try discriminate. injection Q as -> ->.
    destruct P1 as [(j2&y2&l2&z2&P1&P3&Q)|[(?&?&_&_&Q)|[_ Q]]]; try discriminate. injection Q as -> ->.
    destruct P3 as (ys&j3&R&Q). injection Q as -> _.
    apply text_some in P1. destruct P1 as [P1 _]. apply text_some in P2. destruct P2 as [P2 _]. cbn [fst] in *.
    apply spaces_some in R. destruct R as (sp&F&R).
    exists sp. split; [exact F|]. rewrite P1, R, P2, <- !app_assoc. reflexivity.
  Qed.
  Lemma ook_none p q i sp r : Forall Space sp -> peg s (ook_pair p q) i None -> skipn i s <> (ook p ++ sp ++ ook q) ++ r.
  Proof.
    intros F P K.
    rewrite <- !app_assoc in K. pose proof (after _ _ _ _ K) as K2.
    destruct (spaces_yes sp (i + 5) 79%Z ([111; 111; 107; q]%Z ++ r) F) as (ys&R).
    { unfold Space. lia. }
    { exact K2. }
    pose proof (after _ _ _ _ K2) as K3.
    assert (P' : exists x, peg s (ook_pair p q) i (Some x)).
    { eexists. cbn [peg ook_pair]. left. eexists _, _, _, _. split; [|split; [|reflexivity]].
      - left. eexists _, _, _, _. split; [eapply text_yes; exact K|]. split; [|reflexivity]. exists ys. eexists. split; [exact R|reflexivity].
      - eapply text_yes. exact K3. }
    destruct P' as [x P']. pose proof (peg_det s (ook_pair p q) i _ _ P P'). discriminate.
  Qed.
End Ook.

Lemma spaces_same sp sp' x r r' : Forall Space sp -> Forall Space sp' -> ~ Space x -> sp ++ x :: r = sp' ++ x :: r' -> sp = sp'.
Proof.
  intros F F' X. revert sp' F'. induction F as [|c sp Hc F IH]; intros [|c' sp'] F' E; cbn [app] in E.
  - reflexivity.
  - injection E as -> _. inversion_clear F'. contradiction.
  - injection E as -> _. contradiction.
  - injection E as -> E. inversion_clear F'. f_equal. auto.
Qed.
Lemma ook_prefix w c r w' c' r' : ook_word w c -> ook_word w' c' -> w ++ r = w' ++ r' -> w = w' /\ c = c'.
Proof.
  intros (p&q&sp&I1&F&->) (p'&q'&sp'&I2&F'&->) E. rewrite <- !app_assoc in E. cbn [ook app] in E. injection E as -> E.
  assert (X : ~ Space 79) by (unfold Space; lia).
  pose proof (spaces_same _ _ _ _ _ F F' X E) as ->. apply app_inv_head in E. injection E as -> _. split; [reflexivity|].
  cbn [In ook_commands] in I1, I2.
  repeat (destruct I1 as [I1|I1]; [injection I1 as <- <- <-; repeat (destruct I2 as [I2|I2]; [injection I2; intros; congruence|]); contradiction|]).
  contradiction.
Qed.
Lemma ook_nonempty w c : ook_word w c -> w <> [].
Proof. intros (p&q&sp&_&_&->). discriminate. Qed.

Lemma ook_lemma s d k result : Forall character s -> 0 < d -> length s < k -> 1 <= length result ->
  exists out, translated ook_word s out /\ (forall out', translated ook_word s out' -> out' = out) /\
    ook_to_brainfuck d k s result = Ok (filled (map (fun c => if (c =? 32)%Z then 32%Z else 62%Z) out) result, true).
Proof.
  intros HC D K N.
  destruct (table_lemma s ook_table (fun w c => c = 62%Z /\ exists c0, ook_word w c0)) with (d := d) (k := k) (result := result) as (out&T&E); auto.
  - intros c e i j y Hi P. cbn [In ook_table] in Hi.
    repeat (destruct Hi as [Hi|Hi]; [injection Hi as <- <-; destruct (ook_some s HC _ _ _ _ _ P) as (sp&F&Q);
      eexists; split; [split; [reflexivity|eexists _, _, _, sp; split; [cbn [In ook_commands]|split; [exact F|reflexivity]]]|exact Q]; repeat (try (left; reflexivity); right)|]).
    contradiction.
  - intros w c (->&c0&p&q&sp&Hi&F&->). exists (ook_pair p q). split; [|intros i r P; now apply ook_none].
    cbn [In ook_commands] in Hi. repeat (destruct Hi as [Hi|Hi]; [injection Hi as <- <- <-; cbn [In ook_table]; repeat (try (left; reflexivity); right)|]).
    contradiction.
  - discriminate.
  - repeat split; cbn; auto; discriminate.
  - assert (A : exists o, translated ook_word s o /\ out = map (fun c => if (c =? 32)%Z then 32%Z else 62%Z) o).
    { clear E HC K. induction T as [|w c rest out Hw T IH|b rest out Hb T IH].
      - exists []. split; [constructor|reflexivity].
      - destruct Hw as (->&c0&W0). destruct IH as (o&To&->). exists (c0 :: o). split; [now apply tr_word|]. cbn [map].
        destruct (Z.eqb_spec c0 32) as [->|]; [|reflexivity]. exfalso. destruct W0 as (p&q&sp&Hi&_).
        cbn [In ook_commands] in Hi. repeat (destruct Hi as [Hi|Hi]; [discriminate|]). contradiction.
      - destruct IH as (o&To&->). exists (32%Z :: o). split; [|reflexivity]. apply tr_skip; [|exact To].
        intros w c r Hw. apply (Hb _ 62%Z). split; [reflexivity|]. now exists c. }
    destruct A as (o&To&->). exists o. split; [exact To|]. split; [|exact E].
    intros out' T'. exact (translated_unique _ _ _ _ ook_nonempty ook_prefix T' To).
Qed.

Lemma ook_refuted_lemma : exists s, translated ook_word s [60%Z] /\ ook_to_brainfuck 1 12 s [0%Z] = Ok ([62%Z], true).
Proof.
  exists [79; 111; 111; 107; 63; 32; 79; 111; 111; 107; 46]%Z. split; [|reflexivity].
  change [79; 111; 111; 107; 63; 32; 79; 111; 111; 107; 46]%Z with (([79; 111; 111; 107; 63] ++ [32] ++ [79; 111; 111; 107; 46])%Z ++ @nil Z).
  apply tr_word; [|constructor]. exists 63%Z, 46%Z, [32%Z]. split; [right; left; reflexivity|].
  split; [constructor; [left; reflexivity|constructor]|reflexivity].
Qed.

(** * Misa *)
Section Misa.
  Variable s : list Z.
  Lemma entry_some c l i j y : peg s (alts (EPrim (PLitChar c) :: map XStr l)) i (Some (j, y)) ->
    exists w, (w = [c] \/ In w l) /\ skipn i s = w ++ skipn j s.
  Proof.
    intros P. apply alts_some in P. destruct P as (l1&f&l2&E&P&_).
    assert (Hf : In f (EPrim (PLitChar c) :: map XStr l)) by (rewrite E; apply in_elt). destruct Hf as [<-|Hf].
    - destruct P as [(b&N&->&Q)|[_ Q]]; [|discriminate]. injection Q as -> _. exists [c]. split; [auto|]. exact (skipn_cons _ _ _ N).
    - apply in_map_iff in Hf. destruct Hf as (w&<-&Hw). apply text_some in P. exists w. split; [auto|exact (proj1 P)].
  Qed.
  Lemma entry_none c l i w r : peg s (alts (EPrim (PLitChar c) :: map XStr l)) i None -> w = [c] \/ In w l -> skipn i s <> w ++ r.
  Proof.
    intros P W E. apply alts_none in P. inversion_clear P. destruct W as [->|W].
    - destruct H as [(b&N&->&Q)|[N _]]; [discriminate|]. apply (N c); [|reflexivity].
      rewrite <- (firstn_skipn i s), E. assert (i < length s).
      { assert (L : length (skipn i s) = S (length r)) by now rewrite E. rewrite skipn_length in L. lia. }
      rewrite nth_error_app2; rewrite firstn_length, Nat.min_l by lia; [|lia]. now rewrite Nat.sub_diag.
    - rewrite Forall_forall in H0. specialize (H0 (XStr w) (in_map _ _ _ W)). exact (text_none _ _ _ _ H0 r E).
  Qed.
End Misa.

(** the words of the code *)
Definition misa_actual : list (list Z * Z) :=
  map (fun p => if list_eq_dec Z.eq_dec (fst p) [129; 91]%Z then ([129; 5; 66]%Z, snd p) else p) misa_words.
Lemma misa_prefix (l : list (list Z * Z)) : l = misa_words \/ l = misa_actual ->
  forall w c r w' c' r', In (w, c) l -> In (w', c') l -> w ++ r = w' ++ r' -> w = w' /\ c = c'.
Proof.
  intros Hl. assert (A : forallb (fun p => forallb (fun q => implb (forallb (fun xy => Z.eqb (fst xy) (snd xy)) (combine (fst p) (fst q)))
     (if list_eq_dec Z.eq_dec (fst p) (fst q) then Z.eqb (snd p) (snd q) else false)) l) l = true) by (destruct Hl as [-> | ->]; reflexivity).
  intros w c r w' c' r' I1 I2 E. rewrite forallb_forall in A. specialize (A _ I1). cbv beta in A. rewrite forallb_forall in A. specialize (A _ I2).
  cbn [fst snd] in A.
  assert (B : forallb (fun xy => Z.eqb (fst xy) (snd xy)) (combine w w') = true).
  { clear - E. revert w' E. induction w as [|x w IH]; intros [|y w'] E; cbn [combine forallb fst snd]; try reflexivity.
    cbn [app] in E. injection E as -> E. rewrite Z.eqb_refl. cbn [andb]. eauto. }
  rewrite B in A. cbn [implb] in A. destruct (list_eq_dec Z.eq_dec w w') as [->|]; [|discriminate]. apply Z.eqb_eq in A. auto.
Qed.
Lemma misa_nonempty w c : misa_word w c -> w <> [].
Proof.
  intros H ->. unfold misa_word in H. assert (A : forallb (fun p => match fst p with [] => false | _ => true end) misa_words = true) by reflexivity.
  rewrite forallb_forall in A. specialize (A _ H). discriminate.
Qed.
Definition misa_entries : list (Z * list (list Z)) :=
  ([(62, [[129; 168]; [129; 96]; [129; 5; 66]]); (60, [[129; 169]; [129; 154]; [129; 153]]);
    (43, [[130; 160]; [130; 159]; [130; 168]; [130; 167]]); (45, [[130; 193]; [131; 98]]);
    (46, [[129; 73]]); (44, [[129; 72]]); (91, [[129; 117]; [129; 119]]); (93, [[129; 118]; [129; 120]])])%Z.
Lemma misa_table_eq : misa_table = map (fun p => misa_entry (fst p) (snd p)) misa_entries.
Proof. reflexivity. Qed.
Lemma misa_actual_eq : misa_actual = flat_map (fun p => map (fun w => (w, fst p)) ([fst p] :: snd p)) misa_entries.
Proof. reflexivity. Qed.

Lemma misa_actual_lemma s d k result : 0 < d -> length s < k -> 1 <= length result ->
  exists out, translated (fun w c => In (w, c) misa_actual) s out /\
    misa_to_brainfuck d k s result = Ok (filled out result, true).
Proof.
  intros D K N. apply table_lemma; auto.
  - intros c e i j y Hi P. rewrite misa_table_eq in Hi. apply in_map_iff in Hi. destruct Hi as ([c' l]&E&Hi). injection E as <- <-.
    destruct (entry_some _ _ _ _ _ _ P) as (w&W&Q). exists w. split; [|exact Q]. rewrite misa_actual_eq. apply in_flat_map.
    exists (c', l). split; [exact Hi|]. apply in_map_iff. exists w. split; [reflexivity|]. cbn [fst snd In] in *. destruct W; auto.
  - intros w c Hi. rewrite misa_actual_eq in Hi. apply in_flat_map in Hi. destruct Hi as ([c' l]&Hi&W). apply in_map_iff in W.
    destruct W as (w'&E&W). cbn [fst snd] in *. injection E as -> ->. exists (snd (misa_entry c l)). split.
    + rewrite misa_table_eq. apply in_map_iff. exists (c, l). auto.
    + intros i r P. cbn [snd misa_entry fst] in P. eapply entry_none; [exact P|]. cbn [In] in W. destruct W; auto.
  - discriminate.
  - repeat split; cbn; auto; discriminate.
Qed.

Lemma actual_sub w c : In (w, c) misa_actual -> w = [129; 5; 66]%Z \/ misa_word w c.
Proof.
  intros H. unfold misa_actual in H. apply in_map_iff in H. destruct H as ([w' c']&E&H). cbn [fst snd] in E.
  destruct (list_eq_dec Z.eq_dec w' [129; 91]%Z); [left; congruence|right; injection E as -> ->; exact H].
Qed.
Lemma sub_actual w c : misa_word w c -> w = [129; 91]%Z \/ In (w, c) misa_actual.
Proof.
  intros H. destruct (list_eq_dec Z.eq_dec w [129; 91]%Z) as [|n] eqn:E; [auto|right]. unfold misa_actual. apply in_map_iff. exists (w, c). cbn [fst snd].
  rewrite E. auto.
Qed.
Lemma occurs_app w l s : occurs w s -> occurs w (l ++ s).
Proof. intros (p&q&->). exists (l ++ p), q. apply app_assoc. Qed.

Lemma misa_lemma s d k result : ~ occurs [129; 91]%Z s -> ~ occurs [129; 5; 66]%Z s -> 0 < d -> length s < k -> 1 <= length result ->
  exists out, translated misa_word s out /\ (forall out', translated misa_word s out' -> out' = out) /\
    misa_to_brainfuck d k s result = Ok (filled out result, true).
Proof.
  intros N1 N2 D K N. destruct (misa_actual_lemma s d k result D K N) as (out&T&E). exists out.
  assert (A : translated misa_word s out).
  { clear E K. induction T as [|w c rest out Hw T IH|b rest out Hb T IH]; [constructor| |].
    - apply tr_word.
      + destruct (actual_sub _ _ Hw) as [->|]; [|assumption]. exfalso. apply N2. exists [], rest. reflexivity.
      + apply IH; intros O; [apply N1|apply N2]; now apply occurs_app.
    - apply tr_skip.
      + intros w c r Hw. destruct (sub_actual _ _ Hw) as [->|Ha].
        * intros O. apply N1. exists [], r. exact O.
        * apply (Hb _ _ _ Ha).
      + apply IH; intros O; [apply N1|apply N2]; now apply (occurs_app _ [b]). }
  split; [exact A|]. split; [|exact E]. intros out' T'.
  refine (translated_unique _ _ _ _ misa_nonempty _ T' A). exact (misa_prefix misa_words (or_introl eq_refl)).
Qed.
Lemma misa_refuted_lemma : translated misa_word [129; 91]%Z [62%Z] /\
  misa_to_brainfuck 1 3 [129; 91]%Z [0; 0]%Z = Ok ([32; 91]%Z, true).
Proof.
  split; [|reflexivity]. change [129; 91]%Z with ([129; 91]%Z ++ @nil Z). apply tr_word; [|constructor].
  unfold misa_word, misa_words. cbn [In]. auto 10.
Qed.

Lemma misa_plain_lemma s d k result : Forall (fun b => 0 <= b < 128)%Z s -> 0 < d -> length s < k -> 1 <= length result ->
  misa_to_brainfuck d k s result = Ok (filled (map (fun b => if existsb (Z.eqb b) [62; 60; 43; 45; 46; 44; 91; 93]%Z then b else 32%Z) s) result, true).
Proof.
  intros F D K N. destruct (misa_actual_lemma s d k result D K N) as (out&T&->). do 3 f_equal.
  refine (translated_unique (fun w c => In (w, c) misa_actual) s _ _ _ (misa_prefix _ (or_intror eq_refl)) T _).
  - intros w c H ->. assert (A : forallb (fun p => match fst p with [] => false | _ => true end) misa_actual = true) by reflexivity.
    rewrite forallb_forall in A. specialize (A _ H). discriminate.
  - clear - F. induction F as [|b s Hb F IH]; cbn [map]; [constructor|].
    assert (A : forallb (fun p => match fst p with [x] => Z.eqb x (snd p) && existsb (Z.eqb x) [62; 60; 43; 45; 46; 44; 91; 93]%Z | x :: _ => (128 <=? x)%Z | [] => false end) misa_actual = true) by reflexivity.
    rewrite forallb_forall in A.
    destruct (existsb (Z.eqb b) _) eqn:E.
    + change (b :: s) with ([b] ++ s). apply tr_word; [|exact IH].
      cbn [existsb] in E. repeat (apply orb_prop in E; destruct E as [E|E]); try discriminate; apply Z.eqb_eq in E; subst b; unfold misa_actual, misa_words; cbn; auto 30.
    + apply tr_skip; [|exact IH]. intros w c r Hw Q. specialize (A _ Hw). cbn [fst snd] in A. destruct w as [|x w]; [discriminate|].
      cbn [app] in Q. injection Q as <- _. destruct w; [|lia]. apply andb_prop in A. destruct A as [_ A]. congruence.
Qed.
