(** Proofs about the evaluation of expressions of WeedModel.v. *)
From Coq Require Import List Arith ZArith Bool Lia ZifyBool ZifyNat.
From Verif Require Import Base BaseProof BitModel WeedModel WeedSpec WeedProof.
Import ListNotations.
Open Scope nat_scope.

(** * Determinism *)
Section Det.
  Variable s : list Z.
  Definition det (P : nat -> outcome -> Prop) : Prop := forall i o o', P i o -> P i o' -> o = o'.

  Lemma char_det T y : det (char_peg s T y).
  Proof.
    intros i o o' [(c&N&Tc&->)|[F ->]] [(c'&N'&Tc'&->)|[F' ->]]; auto.
    - congruence.
    - destruct (F' c N Tc).
    - destruct (F c' N' Tc').
  Qed.
  Lemma text_det t y : det (text_peg s t y).
  Proof. intros i o o' [[H ->]|[H ->]] [[H' ->]|[H' ->]]; auto; contradiction. Qed.
  Lemma num_det t radix maxd sg n : det (num_peg s t radix maxd sg n).
  Proof. intros i o o' [[H ->]|[H ->]] [[H' ->]|[H' ->]]; auto; contradiction. Qed.
  Lemma prim_det p : det (prim_peg s p).
  Proof.
    destruct p; cbn [prim_peg]; try apply char_det; try apply text_det; try apply num_det; intros i o o'.
    - congruence.
    - intros [[H ->]|[H ->]] [[H' ->]|[H' ->]]; auto; contradiction.
    - unfold is_at. intros [(H1&H2&->)|[(H1&H2&->)|[(H1&->)|(H1&H2&->)]]] [(G1&G2&->)|[(G1&G2&->)|[(G1&->)|(G1&G2&->)]]];
        auto; try contradiction; try congruence.
    - unfold is_at. intros [(H1&H2)|[(H1&H2)|(H1&H2&H3)]] [(G1&G2)|[(G1&G2)|(G1&G2&G3)]]; try contradiction; try congruence;
        eapply num_det; eassumption.
  Qed.

  Lemma reps_det P : det P -> forall b i ys j, reps P b i ys j -> forall ys' j', reps P b i ys' j' -> ys = ys' /\ j = j'.
  Proof.
    intros D. induction 1 as [i|b i N F|b i j y ys l N M H IH]; intros ys' j' H'.
    - inversion H'; subst; auto; congruence.
    - inversion H' as [i0|b0 i0 N0 F0|b0 i0 j0 y0 ys0 l0 N0 M0 H0]; subst; auto. pose proof (D _ _ _ F M0). discriminate.
    - inversion H' as [i0|b0 i0 N0 F0|b0 i0 j0 y0 ys0 l0 N0 M0 H0]; subst; [congruence|pose proof (D _ _ _ F0 M); discriminate|].
      pose proof (D _ _ _ M M0) as E. injection E as <- <-. destruct (IH _ _ H0) as [<- <-]. auto.
  Qed.
  Lemma seps_det t P Q : det P -> det Q -> forall b i ys j, seps t P Q b i ys j -> forall ys' j', seps t P Q b i ys' j' -> ys = ys' /\ j = j'.
  Proof.
    intros D D2. induction 1 as [i|b i N F|b i j x N F G|b i j x l y ys m N F G H IH]; intros ys' j' H'.
    - inversion H'; subst; auto; congruence.
    - inversion H' as [i0|b0 i0 N0 F0|b0 i0 j0 x0 N0 F0 G0|b0 i0 j0 x0 l0 y0 ys0 m0 N0 F0 G0 H0]; subst; auto;
        pose proof (D2 _ _ _ F F0); discriminate.
    - inversion H' as [i0|b0 i0 N0 F0|b0 i0 j0 x0 N0 F0 G0|b0 i0 j0 x0 l0 y0 ys0 m0 N0 F0 G0 H0]; subst; auto; try congruence;
        pose proof (D2 _ _ _ F F0) as E; try discriminate; injection E as <- <-; auto.
      pose proof (D _ _ _ G G0). discriminate.
    - inversion H' as [i0|b0 i0 N0 F0|b0 i0 j0 x0 N0 F0 G0|b0 i0 j0 x0 l0 y0 ys0 m0 N0 F0 G0 H0]; subst; auto; try congruence;
        pose proof (D2 _ _ _ F F0) as E; try discriminate; injection E as <- <-;
        pose proof (D _ _ _ G G0) as E; try discriminate. injection E as <- <-. destruct (IH _ _ H0) as [<- <-]. auto.
  Qed.

  Lemma peg_det e : det (peg s e).
  Proof.
    induction e as [p|c|t|e IHe f IHf|e IHe f IHf|e IHe|e IHe|e IHe f IHf|e IHe|e IHe|e IHe f IHf|e IHe|g e IHe|n cat e IHe|count e IHe|e IHe|v e IHe|e IHe];
      cbn [peg].
    - apply prim_det.
    - apply char_det.
    - apply text_det.
    - intros i o o' [(j&y&l&z&A&B&->)|[(j&y&A&B&->)|[A ->]]] [(j'&y'&l'&z'&A'&B'&->)|[(j'&y'&A'&B'&->)|[A' ->]]]; auto;
        pose proof (IHe _ _ _ A A') as E; try discriminate; injection E as <- <-; pose proof (IHf _ _ _ B B') as E; try discriminate.
      now injection E as <- <-.
    - intros i o o' [(x&->&A)|[A B]] [(x'&->&A')|[A' B']]; auto; try (pose proof (IHe _ _ _ A A'); congruence).
      exact (IHf _ _ _ B B').
    - intros i o o' [(ys&j&R&N&->)|[A ->]] [(ys'&j'&R'&N'&->)|[A' ->]]; auto.
      + now destruct (reps_det _ IHe _ _ _ _ R _ _ R') as [<- <-].
      + exfalso. inversion R; subst; try congruence. pose proof (IHe _ _ _ A' H0). discriminate.
      + exfalso. inversion R'; subst; try congruence. pose proof (IHe _ _ _ A H0). discriminate.
    - intros i o o' (ys&j&R&->) (ys'&j'&R'&->). now destruct (reps_det _ IHe _ _ _ _ R _ _ R') as [<- <-].
    - intros i o o' [(j&y&ys&l&A&R&->)|[A ->]] [(j'&y'&ys'&l'&A'&R'&->)|[A' ->]]; auto; pose proof (IHe _ _ _ A A') as E; try discriminate.
      injection E as <- <-. now destruct (seps_det _ _ _ IHe IHf _ _ _ _ R _ _ R') as [<- <-].
    - intros i o o' [(x&A&->)|[A ->]] [(x'&A'&->)|[A' ->]]; auto; pose proof (IHe _ _ _ A A'); discriminate.
    - intros i o o' [(x&A&->)|[A ->]] [(x'&A'&->)|[A' ->]]; auto; pose proof (IHe _ _ _ A A'); discriminate.
    - intros i o o' [(x&->&A&B)|[(x&y&A&B&->)|[A ->]]] [(x'&->&A'&B')|[(x'&y'&A'&B'&->)|[A' ->]]]; auto;
        try (pose proof (IHe _ _ _ A A'); congruence); pose proof (IHf _ _ _ B B'); discriminate.
    - intros i o o' [(x&->&A)|[A ->]] [(x'&->&A')|[A' ->]]; auto; pose proof (IHe _ _ _ A A'); congruence.
    - exact IHe.
    - exact IHe.
    - intros i o o' (ys&j&R&C) (ys'&j'&R'&C'). destruct (reps_det _ IHe _ _ _ _ R _ _ R') as [<- <-].
      destruct count; congruence.
    - intros i o o' [(j&y&A&->)|[A ->]] [(j'&y'&A'&->)|[A' ->]]; auto; pose proof (IHe _ _ _ A A'); congruence.
    - intros i o o' [(j&y&A&->)|[A ->]] [(j'&y'&A'&->)|[A' ->]]; auto; pose proof (IHe _ _ _ A A'); congruence.
    - exact IHe.
  Qed.
End Det.

(** * Repetition *)
Definition keep {X} (n : nat) (cat : category) (l : list X) : list X :=
  match cat with Discard => firstn n l | Circular => skipn (length l - n) l | Stopover => l end.
Lemma keep_Forall2 {X Y} (R : X -> Y -> Prop) n cat l m : Forall2 R l m -> Forall2 R (keep n cat l) (keep n cat m).
Proof.
  intros H. assert (L : length l = length m) by (induction H; cbn; congruence).
  assert (F : forall k, Forall2 R (firstn k l) (firstn k m)).
  { clear L. induction H; intros [|k]; cbn; constructor; auto. }
  assert (S : forall k, Forall2 R (skipn k l) (skipn k m)).
  { clear L F. induction H; intros [|k]; cbn; auto. }
  destruct cat; cbn; [apply F|rewrite L; apply S|exact H].
Qed.

Section Loops.
  Variable s : list Z.
  Notation len := (length s).
  Notation good := (good s).

  Section One.
    Variables (P : nat -> outcome -> Prop) (A : attr -> list item -> Prop) (W : Prop) (ev : nat -> res eres).
    Hypothesis Hev : forall i, i <= len -> good P A W false i (ev i).

    Lemma ev_cases i : i <= len ->
      (exists r, ev i = Ok r /\ cx r = cur r /\
         ((ok r = true /\ i < cur r <= len /\ exists y, P i (Some (cur r, y)) /\ A (at_ r) y) \/
          (ok r = false /\ cur r = i /\ P i None))) \/ (ev i = UB /\ W).
    Proof.
      intros Hi. pose proof (Hev i Hi) as G. unfold WeedProof.good in G. destruct (ev i) as [r| |]; [|auto|contradiction].
      left. exists r. split; [easy|]. destruct G as [G1 G2]. split; [easy|]. destruct (ok r); [left|right]; intuition lia.
    Qed.

    Lemma call_inf_ok k : forall ctx r, ev ctx = Ok r -> ctx <= len -> len - ctx < k ->
      match call_inf k ev ctx r with
      | Ok q => ok q = true /\ cx q = cur q /\ at_ q = AUnused /\ ctx <= cur q <= len /\
                exists ys, reps P None ctx ys (cur q) /\ Forall (fun y => exists a, A a y) ys
      | UB => W
      | Fuel => False
      end.
    Proof.
      induction k as [|k IH]; intros ctx r Hr Hc Hk; [lia|]. cbn [call_inf].
      destruct (ev_cases ctx Hc) as [(r0&E&C&H)|[E _]]; [|congruence]. assert (r0 = r) by congruence. subst r0.
      destruct H as [(O&B&y&Py&Ay)|(O&B&Pn)]; rewrite O.
      - rewrite C. destruct (ev_cases (cur r)) as [(r'&E'&_)|[E' HW]]; [lia| |]; rewrite E'; cbn [bind]; [|exact HW].
        specialize (IH (cur r) r' E' ltac:(lia) ltac:(lia)). destruct (call_inf k ev (cur r) r') as [q| |]; [|exact IH|exact IH].
        destruct IH as (I1&I2&I3&I4&ys&I5&I6). repeat (split; [easy || lia|]). exists (y :: ys). split.
        + eapply reps_more; [discriminate|exact Py|exact I5].
        + constructor; eauto.
      - cbn. repeat (split; [easy || lia|]). exists []. split; [apply reps_end; [discriminate|exact Pn]|constructor].
    Qed.

    Lemma call_lim_ok n t cat : 1 <= n -> forall k ctx r attrs, ev ctx = Ok r -> ctx <= len -> len - ctx < k ->
      length attrs <= n -> (cat = Stopover -> length attrs < n) ->
      match call_lim k ev n t cat ctx r attrs with
      | Ok q => ok q = true /\ cx q = cur q /\ ctx <= cur q <= len /\
                exists ats ys, reps P (match cat with Stopover => Some (n - length attrs) | _ => None end) ctx ys (cur q) /\
                  Forall2 A ats ys /\ at_ q = times_attr t (keep n cat (attrs ++ ats))
      | UB => W
      | Fuel => False
      end.
    Proof.
      intros Hn. induction k as [|k IH]; intros ctx r attrs Hr Hc Hk Ha Hs; [lia|]. cbn [call_lim].
      destruct (ev_cases ctx Hc) as [(r0&E&C&H)|[E _]]; [|congruence]. assert (r0 = r) by congruence. subst r0.
      assert (NB : forall x, x < n -> Some (n - x) <> Some 0) by (intros; intros Q; injection Q; lia).
      destruct H as [(O&B&y&Py&Ay)|(O&B&Pn)]; rewrite O.
      - rewrite C.
        assert (REC : forall attrs', length attrs' <= n -> (cat = Stopover -> length attrs' < n) ->
          match (r' <- ev (cur r) ;; call_lim k ev n t cat (cur r) r' attrs') with
          | Ok q => ok q = true /\ cx q = cur q /\ cur r <= cur q <= len /\
                exists ats ys, reps P (match cat with Stopover => Some (n - length attrs') | _ => None end) (cur r) ys (cur q) /\
                  Forall2 A ats ys /\ at_ q = times_attr t (keep n cat (attrs' ++ ats))
          | UB => W
          | Fuel => False
          end).
        { intros attrs' L1 L2. destruct (ev_cases (cur r)) as [(r'&E'&_)|[E' HW]]; [lia| |]; rewrite E'; cbn [bind]; [|exact HW].
          apply IH; auto; lia. }
        destruct (Nat.eqb_spec (length attrs) n) as [E1|E1].
        + destruct cat.
          * specialize (REC attrs Ha Hs). destruct (r' <- ev (cur r) ;; _) as [q| |]; [|exact REC|exact REC].
            destruct REC as (I1&I2&I3&ats&ys&I4&I5&I6). repeat (split; [easy || lia|]). exists (at_ r :: ats), (y :: ys). split; [|split].
            -- eapply reps_more; [discriminate|exact Py|exact I4].
            -- now constructor.
            -- rewrite I6. cbn [keep]. rewrite !firstn_app, E1, Nat.sub_diag. reflexivity.
          * specialize (REC (tl attrs ++ [at_ r])).
            assert (L : length (tl attrs ++ [at_ r]) = n) by (rewrite app_length; destruct attrs; cbn in *; lia).
            specialize (REC ltac:(lia) ltac:(discriminate)). destruct (r' <- ev (cur r) ;; _) as [q| |]; [|exact REC|exact REC].
            destruct REC as (I1&I2&I3&ats&ys&I4&I5&I6). repeat (split; [easy || lia|]). exists (at_ r :: ats), (y :: ys). split; [|split].
            -- eapply reps_more; [discriminate|exact Py|exact I4].
            -- now constructor.
            -- rewrite I6. cbn [keep]. f_equal. destruct attrs as [|a0 attrs]; [cbn in *; lia|]. cbn [tl] in *.
               rewrite <- app_assoc. cbn [app]. cbn [app length].
               replace (S (length (attrs ++ at_ r :: ats)) - n) with (S (length (attrs ++ at_ r :: ats) - n)); [reflexivity|].
               rewrite app_length in *. cbn [length] in *. lia.
          * specialize (Hs eq_refl). lia.
        + assert (APP : length (attrs ++ [at_ r]) = S (length attrs)) by (rewrite app_length; cbn; lia).
          assert (FIN : S (length attrs) <> n \/ cat <> Stopover ->
            match (r' <- ev (cur r) ;; call_lim k ev n t cat (cur r) r' (attrs ++ [at_ r])) with
            | Ok q => ok q = true /\ cx q = cur q /\ ctx <= cur q <= len /\
                exists ats ys, reps P (match cat with Stopover => Some (n - length attrs) | _ => None end) ctx ys (cur q) /\
                  Forall2 A ats ys /\ at_ q = times_attr t (keep n cat (attrs ++ ats))
            | UB => W
            | Fuel => False
            end).
          { intros HF. specialize (REC (attrs ++ [at_ r])). rewrite APP in REC.
            assert (HS : cat = Stopover -> S (length attrs) < n).
            { intros ->. specialize (Hs eq_refl). destruct HF; [lia|congruence]. }
            specialize (REC ltac:(lia) HS). destruct (r' <- ev (cur r) ;; _) as [q| |]; [|exact REC|exact REC].
            destruct REC as (I1&I2&I3&ats&ys&I4&I5&I6). repeat (split; [easy || lia|]). exists (at_ r :: ats), (y :: ys). split; [|split].
            - eapply reps_more; [destruct cat; try discriminate; apply NB; lia|exact Py|].
              destruct cat; [exact I4|exact I4|]. cbn [option_map]. now replace (pred (n - length attrs)) with (n - S (length attrs)) by lia.
            - now constructor.
            - rewrite I6, <- app_assoc. reflexivity. }
          destruct (Nat.eqb_spec (S (length attrs)) n) as [E2|E2]; [|apply FIN; auto].
          destruct cat; [apply FIN; right; discriminate|apply FIN; right; discriminate|].
          cbn [ok cx cur at_]. repeat (split; [easy || lia|]). exists [at_ r], [y]. split; [|split].
          * eapply reps_more; [apply NB; lia|exact Py|]. cbn [option_map]. replace (pred (n - length attrs)) with 0 by lia. apply reps_full.
          * constructor; [exact Ay|constructor].
          * reflexivity.
      - cbn [ok cx cur at_]. repeat (split; [easy || lia|]). exists [], []. split; [|split].
        + apply reps_end; [destruct cat; try discriminate; specialize (Hs eq_refl); apply NB; lia|exact Pn].
        + constructor.
        + rewrite app_nil_r. f_equal. destruct cat; cbn [keep]; [now rewrite firstn_all2|now replace (length attrs - n) with 0 by lia|reflexivity].
    Qed.

    Lemma rep_inf_ok k : forall n pos r, ev pos = Ok r -> pos <= len -> len - pos < k ->
      match rep_inf k ev (Some 0) pos r n with
      | Ok q => ok q = true /\ cx q = cur q /\ at_ q = AUnused /\ pos <= cur q <= len /\
                exists ys, reps P None pos ys (cur q) /\ Forall (fun y => exists a, A a y) ys
      | UB => W
      | Fuel => False
      end.
    Proof.
      induction k as [|k IH]; intros n pos r Hr Hc Hk; [lia|]. cbn [rep_inf count_le Nat.leb].
      destruct (ev_cases pos Hc) as [(r0&E&C&H)|[E _]]; [|congruence]. assert (r0 = r) by congruence. subst r0.
      destruct H as [(O&B&y&Py&Ay)|(O&B&Pn)]; rewrite O.
      - rewrite C. destruct (ev_cases (cur r)) as [(r'&E'&_)|[E' HW]]; [lia| |]; rewrite E'; cbn [bind]; [|exact HW].
        specialize (IH (S n) (cur r) r' E' ltac:(lia) ltac:(lia)). destruct (rep_inf k ev (Some 0) (cur r) r' (S n)) as [q| |]; [|exact IH|exact IH].
        destruct IH as (I1&I2&I3&I4&ys&I5&I6). repeat (split; [easy || lia|]). exists (y :: ys). split.
        + eapply reps_more; [discriminate|exact Py|exact I5].
        + constructor; eauto.
      - cbn. repeat (split; [easy || lia|]). exists []. split; [apply reps_end; [discriminate|exact Pn]|constructor].
    Qed.

    Lemma rep_lim_ok c n t ta f0 : c = 0 \/ c = n -> forall k pos r attrs, ev pos = Ok r -> pos <= len -> len - pos < k ->
      1 <= length attrs < n ->
      match rep_lim k ev (Some c) n t ta (if c =? 0 then pos else f0) r attrs with
      | Ok q => cx q = cur q /\ exists ats ys j, reps P (Some (n - length attrs)) pos ys j /\ Forall2 A ats ys /\ pos <= j <= len /\
          if ok q then c <= length attrs + length ys /\ cur q = j /\ at_ q = times_attr t (attrs ++ ats)
          else length attrs + length ys < c /\ cur q = f0
      | UB => W
      | Fuel => False
      end.
    Proof.
      intros Hcn. induction k as [|k IH]; intros pos r attrs Hr Hc Hk Ha; [lia|]. cbn [rep_lim count_le].
      destruct (ev_cases pos Hc) as [(r0&E&C&H)|[E _]]; [|congruence]. assert (r0 = r) by congruence. subst r0.
      assert (NB : forall x, x < n -> Some (n - x) <> Some 0) by (intros; intros Q; injection Q; lia).
      destruct H as [(O&B&y&Py&Ay)|(O&B&Pn)]; rewrite O.
      - destruct (Nat.eqb_spec (S (length attrs)) n) as [E1|E1].
        + unfold presult. cbn [ok cx cur at_]. split; [easy|]. exists [at_ r], [y], (cur r). split; [|split; [|split]].
          * eapply reps_more; [apply NB; lia|exact Py|]. cbn [option_map]. replace (pred (n - length attrs)) with 0 by lia. apply reps_full.
          * constructor; [exact Ay|constructor].
          * lia.
          * cbn. split; [lia|]. auto.
        + rewrite C. destruct (ev_cases (cur r)) as [(r'&E'&_)|[E' HW]]; [lia| |]; rewrite E'; cbn [bind]; [|exact HW].
          assert (APP : length (attrs ++ [at_ r]) = S (length attrs)) by (rewrite app_length; cbn; lia).
          replace (if c <=? length attrs then cur r else if c =? 0 then pos else f0) with (if c =? 0 then cur r else f0)
            by (destruct (Nat.eqb_spec c 0); destruct (Nat.leb_spec c (length attrs)); auto; lia).
          specialize (IH (cur r) r' (attrs ++ [at_ r]) E' ltac:(lia) ltac:(lia) ltac:(lia)).
          destruct (rep_lim _ _ _ _ _ _ _ _ _) as [q| |]; [|exact IH|exact IH]. rewrite APP in IH.
          destruct IH as (I1&ats&ys&j&I2&I3&I4&I5). split; [easy|]. exists (at_ r :: ats), (y :: ys), j. split; [|split; [|split]].
          * eapply reps_more; [apply NB; lia|exact Py|]. cbn [option_map]. now replace (pred (n - length attrs)) with (n - S (length attrs)) by lia.
          * now constructor.
          * lia.
          * rewrite <- app_assoc in I5. cbn [length]. destruct (ok q); [|lia]. split; [lia|]. exact (proj2 I5).
      - assert (R0 : reps P (Some (n - length attrs)) pos [] pos) by (apply reps_end; [apply NB; lia|exact Pn]).
        destruct (Nat.leb_spec c (length attrs)) as [L|L]; unfold presult; cbn [ok cx cur at_]; (split; [easy|]);
          exists [], [], pos; (split; [exact R0|]); (split; [constructor|]); (split; [lia|]); cbn [length].
        + split; [lia|]. rewrite app_nil_r. split; [|easy]. destruct (Nat.eqb_spec c 0); [easy|]. lia.
        + split; [lia|]. destruct (Nat.eqb_spec c 0); [lia|easy].
    Qed.
  End One.

  Section Two.
    Variables (P Q : nat -> outcome -> Prop) (A B : attr -> list item -> Prop) (W : Prop) (ev1 ev2 : nat -> res eres) (n1 n2 : bool).
    Hypothesis H1 : forall i, i <= len -> good P A W n1 i (ev1 i).
    Hypothesis H2 : forall i, i <= len -> good Q B W n2 i (ev2 i).
    Hypothesis Hnul : n1 && n2 = false.

    Lemma ev2_cases P' A' ev nul i : good P' A' W nul i (ev i) ->
      (exists r, ev i = Ok r /\ cx r = cur r /\
         ((ok r = true /\ i <= cur r <= len /\ (nul = false -> i < cur r) /\ exists y, P' i (Some (cur r, y)) /\ A' (at_ r) y) \/
          (ok r = false /\ cur r = i /\ P' i None))) \/ (ev i = UB /\ W).
    Proof.
      clear H1 H2. intros G. unfold WeedProof.good in G. destruct (ev i) as [r| |]; [|auto|contradiction].
      left. exists r. split; [easy|]. destruct G as [G1 G2]. split; [easy|]. destruct (ok r); [left|right; tauto].
      destruct nul; intuition (try lia; try discriminate).
    Qed.

    Lemma mod_inf_ok k : forall ctx r, ev2 ctx = Ok r -> ctx <= len -> len - ctx < k ->
      match mod_inf_1 k ev1 ev2 ctx r with
      | Ok q => ok q = true /\ cx q = cur q /\ at_ q = AUnused /\ ctx <= cur q <= len /\
                exists ys, seps true P Q None ctx ys (cur q) /\ Forall (fun y => exists a, A a y) ys
      | UB => W
      | Fuel => False
      end.
    Proof.
      induction k as [|k IH]; intros ctx r Hr Hc Hk; [lia|]. cbn [mod_inf_1].
      destruct (ev2_cases _ _ _ _ _ (H2 ctx Hc)) as [(r0&E&C&H)|[E _]]; [|congruence]. assert (r0 = r) by congruence. subst r0.
      destruct H as [(O&L1&L2&x&Qx&Bx)|(O&L1&Qn)]; rewrite O.
      - rewrite C. destruct (ev2_cases _ _ _ _ _ (H1 (cur r) ltac:(lia))) as [(q&Eq&Cq&H)|[Eq HW]]; rewrite Eq; cbn [bind]; [|exact HW].
        destruct H as [(Oq&M1&M2&y&Py&Ay)|(Oq&M1&Pn)]; rewrite Oq.
        + rewrite Cq. destruct (ev2_cases _ _ _ _ _ (H2 (cur q) ltac:(lia))) as [(r'&E'&_)|[E' HW]]; rewrite E'; cbn [bind]; [|exact HW].
          assert (ctx < cur q) by (destruct n1, n2; try discriminate Hnul; intuition lia).
          specialize (IH (cur q) r' E' ltac:(lia) ltac:(lia)). destruct (mod_inf_1 k ev1 ev2 (cur q) r') as [p| |]; [|exact IH|exact IH].
          destruct IH as (I1&I2&I3&I4&ys&I5&I6). repeat (split; [easy || lia|]). exists (y :: ys). split.
          * eapply seps_more; [discriminate|exact Qx|exact Py|exact I5].
          * constructor; eauto.
        + cbn [ok cx cur at_]. repeat (split; [easy || lia|]). exists []. split; [|constructor].
          exact (seps_last true P Q None ctx (cur r) x ltac:(discriminate) Qx Pn).
      - cbn [ok cx cur at_]. repeat (split; [easy || lia|]). exists []. split; [apply seps_end; [discriminate|exact Qn]|constructor].
    Qed.

    Lemma mod_lim_ok n t cat : 1 <= n -> forall k ctx r attrs, ev2 ctx = Ok r -> ctx <= len -> len - ctx < k ->
      length attrs <= n -> (cat = Stopover -> length attrs < n) ->
      match mod_lim_1 k ev1 ev2 n t cat ctx r attrs with
      | Ok q => ok q = true /\ cx q = cur q /\ ctx <= cur q <= len /\
                exists ats ys, seps true P Q (match cat with Stopover => Some (n - length attrs) | _ => None end) ctx ys (cur q) /\
                  Forall2 A ats ys /\ at_ q = times_attr t (keep n cat (attrs ++ ats))
      | UB => W
      | Fuel => False
      end.
    Proof.
      intros Hn. induction k as [|k IH]; intros ctx r attrs Hr Hc Hk Ha Hs; [lia|]. cbn [mod_lim_1].
      destruct (ev2_cases _ _ _ _ _ (H2 ctx Hc)) as [(r0&E&C&H)|[E _]]; [|congruence]. assert (r0 = r) by congruence. subst r0.
      assert (NB : forall x, x < n -> Some (n - x) <> Some 0) by (intros; intros X; injection X; lia).
      assert (NC : match cat with Stopover => Some (n - length attrs) | _ => None end <> Some 0)
        by (destruct cat; try discriminate; specialize (Hs eq_refl); apply NB; lia).
      assert (K0 : times_attr t attrs = times_attr t (keep n cat (attrs ++ []))).
      { rewrite app_nil_r. f_equal. destruct cat; cbn [keep]; [now rewrite firstn_all2|now replace (length attrs - n) with 0 by lia|reflexivity]. }
      destruct H as [(O&L1&L2&x&Qx&Bx)|(O&L1&Qn)]; rewrite O.
      - rewrite C. destruct (ev2_cases _ _ _ _ _ (H1 (cur r) ltac:(lia))) as [(q&Eq&Cq&H)|[Eq HW]]; rewrite Eq; cbn [bind]; [|exact HW].
        destruct H as [(Oq&M1&M2&y&Py&Ay)|(Oq&M1&Pn)]; rewrite Oq.
        + rewrite Cq. assert (ctx < cur q) by (destruct n1, n2; try discriminate Hnul; intuition lia).
          assert (REC : forall attrs', length attrs' <= n -> (cat = Stopover -> length attrs' < n) ->
            match (r' <- ev2 (cur q) ;; mod_lim_1 k ev1 ev2 n t cat (cur q) r' attrs') with
            | Ok p => ok p = true /\ cx p = cur p /\ cur q <= cur p <= len /\
                  exists ats ys, seps true P Q (match cat with Stopover => Some (n - length attrs') | _ => None end) (cur q) ys (cur p) /\
                    Forall2 A ats ys /\ at_ p = times_attr t (keep n cat (attrs' ++ ats))
            | UB => W
            | Fuel => False
            end).
          { intros attrs' X1 X2. destruct (ev2_cases _ _ _ _ _ (H2 (cur q) ltac:(lia))) as [(r'&E'&_)|[E' HW]]; rewrite E'; cbn [bind]; [|exact HW].
            apply IH; auto; lia. }
          destruct (Nat.eqb_spec (length attrs) n) as [E1|E1].
          * destruct cat.
            -- specialize (REC attrs Ha Hs). destruct (r' <- ev2 (cur q) ;; _) as [p| |]; [|exact REC|exact REC].
               destruct REC as (I1&I2&I3&ats&ys&I4&I5&I6). repeat (split; [easy || lia|]). exists (at_ q :: ats), (y :: ys). split; [|split].
               ++ eapply seps_more; [discriminate|exact Qx|exact Py|exact I4].
               ++ now constructor.
               ++ rewrite I6. cbn [keep]. rewrite !firstn_app, E1, Nat.sub_diag. reflexivity.
            -- specialize (REC (tl attrs ++ [at_ q])).
               assert (L : length (tl attrs ++ [at_ q]) = n) by (rewrite app_length; destruct attrs; cbn in *; lia).
               specialize (REC ltac:(lia) ltac:(discriminate)). destruct (r' <- ev2 (cur q) ;; _) as [p| |]; [|exact REC|exact REC].
               destruct REC as (I1&I2&I3&ats&ys&I4&I5&I6). repeat (split; [easy || lia|]). exists (at_ q :: ats), (y :: ys). split; [|split].
               ++ eapply seps_more; [discriminate|exact Qx|exact Py|exact I4].
               ++ now constructor.
               ++ rewrite I6. cbn [keep]. f_equal. destruct attrs as [|a0 attrs]; [cbn in *; lia|]. cbn [tl] in *.
                  rewrite <- app_assoc. cbn [app]. cbn [app length].
                  replace (S (length (attrs ++ at_ q :: ats)) - n) with (S (length (attrs ++ at_ q :: ats) - n)); [reflexivity|].
                  rewrite app_length in *. cbn [length] in *. lia.
            -- specialize (Hs eq_refl). lia.
          * assert (APP : length (attrs ++ [at_ q]) = S (length attrs)) by (rewrite app_length; cbn; lia).
            assert (FIN : S (length attrs) <> n \/ cat <> Stopover ->
              match (r' <- ev2 (cur q) ;; mod_lim_1 k ev1 ev2 n t cat (cur q) r' (attrs ++ [at_ q])) with
              | Ok p => ok p = true /\ cx p = cur p /\ ctx <= cur p <= len /\
                  exists ats ys, seps true P Q (match cat with Stopover => Some (n - length attrs) | _ => None end) ctx ys (cur p) /\
                    Forall2 A ats ys /\ at_ p = times_attr t (keep n cat (attrs ++ ats))
              | UB => W
              | Fuel => False
              end).
            { intros HF. specialize (REC (attrs ++ [at_ q])). rewrite APP in REC.
              assert (HS : cat = Stopover -> S (length attrs) < n).
              { intros ->. specialize (Hs eq_refl). destruct HF; [lia|congruence]. }
              specialize (REC ltac:(lia) HS). destruct (r' <- ev2 (cur q) ;; _) as [p| |]; [|exact REC|exact REC].
              destruct REC as (I1&I2&I3&ats&ys&I4&I5&I6). repeat (split; [easy || lia|]). exists (at_ q :: ats), (y :: ys). split; [|split].
              - eapply seps_more; [exact NC|exact Qx|exact Py|].
                destruct cat; [exact I4|exact I4|]. cbn [option_map]. now replace (pred (n - length attrs)) with (n - S (length attrs)) by lia.
              - now constructor.
              - rewrite I6, <- app_assoc. reflexivity. }
            destruct (Nat.eqb_spec (S (length attrs)) n) as [E2|E2]; [|apply FIN; auto].
            destruct cat; [apply FIN; right; discriminate|apply FIN; right; discriminate|].
            cbn [ok cx cur at_]. repeat (split; [easy || lia|]). exists [at_ q], [y]. split; [|split].
            -- eapply seps_more; [apply NB; lia|exact Qx|exact Py|]. cbn [option_map]. replace (pred (n - length attrs)) with 0 by lia. apply seps_full.
            -- constructor; [exact Ay|constructor].
            -- reflexivity.
        + cbn [ok cx cur at_]. repeat (split; [easy || lia|]). exists [], []. split; [|split; [constructor|exact K0]].
          exact (seps_last true P Q _ ctx (cur r) x NC Qx Pn).
      - cbn [ok cx cur at_]. repeat (split; [easy || lia|]). exists [], []. split; [|split; [constructor|exact K0]].
        apply seps_end; [exact NC|exact Qn].
    Qed.
  End Two.
End Loops.
