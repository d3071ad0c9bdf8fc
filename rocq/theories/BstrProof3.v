(** Proofs about BstrModel.v: the search functions. *)
From Coq Require Import List Arith ZArith Bool Lia.
From Coq Require Import ZifyBool ZifyNat.
From Verif Require Import Base BaseProof ListFacts SearchModel SearchSpec SearchProof OrderSpec OrderProof MutModel MutSpec MutProof
  MutProof2 BsModel BsProof StrModel StrSpec StrProof StrProof2 StrProof3 BstrModel BstrSpec BstrProof BstrProof2.
Import ListNotations.
Open Scope Z_scope.

(** the position of the first [a], or the end *)
Lemma helper_find_lemma d m p xs a : block m p xs -> (depth_bound (length xs) <= d)%nat ->
  exists h, helper_find d m p (length xs) a = Ok (p + h)%nat /\ (h <= length xs)%nat /\
    (forall j, (j < h)%nat -> nth_error xs j <> Some a) /\ ((h < length xs)%nat -> nth_error xs h = Some a).
Proof.
  intros B D. destruct (first_index (fun x => x =? a) xs) as (h & H1 & H2 & H3). exists h. repeat split.
  - unfold helper_find.
    change (find_if true d m p (p + length xs) (fun x => x =? a)) with (find Z.eqb true d m p (p + length xs) a).
    apply find_upto; [exact H1| |exact D].
    intros i I J. exists (nth i xs 0). split; [now apply block_nth|].
    destruct (Nat.eq_dec i h) as [->|Ne].
    + specialize (H3 I). split; [reflexivity|]. intros _. lia.
    + specialize (H2 i ltac:(lia)). split; [lia|]. intros ->. lia.
  - exact H1.
  - intros j J X. specialize (H2 j J). rewrite nth_ne, X in H2. lia.
  - intros L. specialize (H3 L). rewrite ok_nth by exact L. f_equal. lia.
Qed.
Lemma among_lemma d ms s xs x : block ms s xs -> (depth_bound (length xs) <= d)%nat ->
  exists f, among d ms s (length xs) x = Ok f /\ (f = true <-> In x xs).
Proof.
  intros B D. destruct (helper_find_lemma d ms s xs x B D) as (h & E & L & N & Y). unfold among. rewrite E. cbn [bind].
  eexists. split; [reflexivity|]. destruct (Nat.eqb_spec (s + h) (s + length xs)) as [C|C]; cbn [negb].
  - split; [discriminate|]. intros I. apply In_nth_error in I. destruct I as (j & J).
    assert (j < length xs)%nat by (apply nth_error_Some; congruence). exfalso. apply (N j); [lia|exact J].
  - split; [|reflexivity]. intros _. eapply nth_error_In. apply Y. lia.
Qed.

Section Chars.
  Variables (m : list Z) (b len : nat) (cs : list Z).
  Hypothesis H : text m b len cs.

  Lemma text_rd i : (i < len)%nat -> rd m (b + i) = Ok (nth i cs 0).
  Proof. intros I. pose proof H as (E & B). apply rd_ok. apply B. apply ok_nth. lia. Qed.
  Lemma text_at P i : char_at P cs i <-> (i < len)%nat /\ P (nth i cs 0).
  Proof.
    pose proof H as (E & _). unfold char_at. split.
    - intros (x & X & Px). assert (i < length cs)%nat by (apply nth_error_Some; congruence). split; [lia|]. now rewrite nth_ne, X.
    - intros (I & Px). exists (nth i cs 0). split; [apply ok_nth; lia|exact Px].
  Qed.

  (** a scan from the left *)
  Section Up.
    Variables (P : Z -> Prop) (f : nat -> nat -> res (option nat)).
    Hypothesis Step : forall r pos, (pos < len)%nat ->
      (P (nth pos cs 0) /\ f (S r) pos = Ok (Some pos)) \/ (~ P (nth pos cs 0) /\ f (S r) pos = f r (pos + 1)%nat).
    Hypothesis Stop : forall r pos, (len <= pos)%nat -> f (S r) pos = Ok None.
    Lemma scan_up r : forall pos, (len < r + pos)%nat -> (0 < r)%nat ->
      exists o, f r pos = Ok o /\ first_from (char_at P cs) pos o.
    Proof.
      induction r as [|r IH]; intros pos R R0; [lia|]. destruct (Nat.lt_ge_cases pos len) as [C|C].
      - destruct (Step r pos C) as [(Px & E)|(Px & E)]; rewrite E.
        + exists (Some pos). split; [reflexivity|]. repeat split; [lia| |intros; lia]. apply text_at. auto.
        + destruct (IH (pos + 1)%nat ltac:(lia) ltac:(lia)) as (o & Eo & F). exists o. split; [exact Eo|].
          assert (Np : ~ char_at P cs pos) by (rewrite text_at; tauto).
          destruct o as [i|]; cbn [first_from] in F |- *.
          * destruct F as (F1 & F2 & F3). repeat split; [lia|exact F2|]. intros j J.
            destruct (Nat.eq_dec j pos) as [->|Ne]; [exact Np|]. apply F3. lia.
          * intros j J. destruct (Nat.eq_dec j pos) as [->|Ne]; [exact Np|]. apply F. lia.
      - rewrite (Stop r pos C). exists None. split; [reflexivity|]. intros j J. rewrite text_at. lia.
    Qed.
  End Up.

  (** a scan from the right *)
  Section Down.
    Variables (P : Z -> Prop) (f : nat -> nat -> res (option nat)).
    Hypothesis Step : forall r pos, (pos < len)%nat ->
      (P (nth pos cs 0) /\ f (S r) pos = Ok (Some pos)) \/
      (~ P (nth pos cs 0) /\ f (S r) pos = if negb (pos =? 0)%nat then f r (pos - 1)%nat else Ok None).
    Lemma scan_down r : forall pos, (pos < r)%nat -> (pos < len)%nat ->
      exists o, f r pos = Ok o /\ last_upto (char_at P cs) pos o.
    Proof.
      induction r as [|r IH]; intros pos R L; [lia|].
      destruct (Step r pos L) as [(Px & E)|(Px & E)]; rewrite E.
      - exists (Some pos). split; [reflexivity|]. repeat split; [lia| |intros; lia]. apply text_at. auto.
      - assert (Np : ~ char_at P cs pos) by (rewrite text_at; tauto).
        destruct (Nat.eqb_spec pos 0) as [->|Ne]; cbn [negb].
        + exists None. split; [reflexivity|]. intros j J. now replace j with 0%nat by lia.
        + destruct (IH (pos - 1)%nat ltac:(lia) ltac:(lia)) as (o & Eo & F). exists o. split; [exact Eo|].
          destruct o as [i|]; cbn [last_upto] in F |- *.
          * destruct F as (F1 & F2 & F3). repeat split; [lia|exact F2|]. intros j J.
            destruct (Nat.eq_dec j pos) as [->|Ne2]; [exact Np|]. apply F3. lia.
          * intros j J. destruct (Nat.eq_dec j pos) as [->|Ne2]; [exact Np|]. apply F. lia.
    Qed.
  End Down.
  (** positions behind the end never count *)
  Lemma last_upto_cut P p o : (0 < len)%nat ->
    last_upto (char_at P cs) (if (p <? len - 1)%nat then p else (len - 1)%nat) o -> last_upto (char_at P cs) p o.
  Proof.
    intros L F. destruct (Nat.ltb_spec p (len - 1)) as [C|C]; [exact F|].
    destruct o as [i|]; cbn [last_upto] in F |- *.
    - destruct F as (F1 & F2 & F3). repeat split; [lia|exact F2|]. intros j J.
      destruct (Nat.lt_ge_cases j len) as [D|D]; [apply F3; lia|]. rewrite text_at. lia.
    - intros j J. destruct (Nat.lt_ge_cases j len) as [D|D]; [apply F; lia|]. rewrite text_at. lia.
  Qed.
  Lemma none_upto P p : len = 0%nat -> last_upto (char_at P cs) p None.
  Proof. intros L j J. rewrite text_at. lia. Qed.

  Lemma find_c_text d c pos : (depth_bound len <= d)%nat ->
    exists o, find_c_impl d m b len c pos = Ok o /\ first_from (char_at (eq c) cs) pos o.
  Proof.
    intros D. pose proof H as (E & _). unfold find_c_impl. destruct (Nat.ltb_spec pos len) as [C|C].
    - assert (B : block m (b + pos) (skipn pos cs)).
      { replace (skipn pos cs) with (sub cs pos (length cs - pos)).
        - apply block_sub. apply H.
        - unfold sub. apply firstn_all2. rewrite skipn_length. lia. }
      destruct (helper_find_lemma d m (b + pos) (skipn pos cs) c B) as (h & F & Lh & Nh & Yh).
      { rewrite skipn_length. pose proof (Nat.log2_le_mono (length cs - pos) len ltac:(lia)). unfold depth_bound in *. lia. }
      rewrite skipn_length in *. rewrite <- E in *. rewrite F. cbn [bind]. eexists. split; [reflexivity|].
      assert (Q : forall j, (pos <= j < pos + h)%nat -> ~ char_at (eq c) cs j).
      { intros j J (x & X & <-). apply (Nh (j - pos)%nat); [lia|]. rewrite ne_skipn. now replace (pos + (j - pos))%nat with j by lia. }
      destruct (Nat.eqb_spec (b + pos + h) (b + len)) as [G|G]; cbn [negb first_from].
      + intros j J. destruct (Nat.lt_ge_cases j len) as [K|K]; [apply Q; lia|]. rewrite text_at. lia.
      + replace (b + pos + h - b)%nat with (pos + h)%nat by lia. repeat split; [lia| |intros j J; apply Q; lia].
        exists c. split; [|reflexivity]. rewrite <- ne_skipn. apply Yh. lia.
    - exists None. split; [reflexivity|]. intros j J. rewrite text_at. lia.
  Qed.

  Lemma rfind_c_aux c r : forall p, (p <= r)%nat -> (p <= len)%nat ->
    exists o, rfind_c_impl_1 (S r) m b p c = Ok o /\
      match p with O => o = None | S q => last_upto (char_at (eq c) cs) q o end.
  Proof.
    induction r as [|r IH]; intros p R L.
    - replace p with 0%nat by lia. exists None. split; reflexivity.
    - destruct p as [|q]; [exists None; split; reflexivity|].
      cbn [rfind_c_impl_1]. replace (0 <? S q)%nat with true by lia. replace (S q - 1)%nat with q by lia.
      rewrite text_rd by lia. cbn [bind]. destruct (Z.eqb_spec (nth q cs 0) c) as [Q|Q].
      + exists (Some q). split; [reflexivity|]. repeat split; [lia| |intros; lia]. apply text_at. split; [lia|congruence].
      + destruct (IH q ltac:(lia) ltac:(lia)) as (o & Eo & F). exists o. split; [exact Eo|].
        assert (Np : ~ char_at (eq c) cs q) by (rewrite text_at; intros (_ & A); congruence).
        destruct q as [|q'].
        * subst o. intros j J. now replace j with 0%nat by lia.
        * destruct o as [i|]; cbn [last_upto] in F |- *.
          -- destruct F as (F1 & F2 & F3). repeat split; [lia|exact F2|]. intros j J.
             destruct (Nat.eq_dec j (S q')) as [->|Ne2]; [exact Np|]. apply F3. lia.
          -- intros j J. destruct (Nat.eq_dec j (S q')) as [->|Ne2]; [exact Np|]. apply F. lia.
  Qed.
  Lemma rfind_c_text r c pos : (len < r)%nat ->
    exists o, rfind_c_impl r m b len c pos = Ok o /\ last_upto (char_at (eq c) cs) pos o.
  Proof.
    intros R. unfold rfind_c_impl. destruct (Nat.eqb_spec len 0) as [Z0|Z0]; cbn [negb].
    - exists None. split; [reflexivity|]. now apply none_upto.
    - destruct r as [|r]; [lia|].
      destruct (rfind_c_aux c r (if (pos <? len - 1)%nat then (pos + 1)%nat else len)) as (o & Eo & F).
      + destruct (pos <? len - 1)%nat eqn:Q; lia.
      + destruct (pos <? len - 1)%nat eqn:Q; lia.
      + exists o. split; [exact Eo|]. apply last_upto_cut; [lia|]. destruct (pos <? len - 1)%nat eqn:Q.
        * now rewrite Nat.add_1_r in F.
        * destruct len as [|q]; [lia|]. now replace (S q - 1)%nat with q by lia.
  Qed.

  Lemma find_first_not_of_c_text r c pos : (len < r)%nat ->
    exists o, find_first_not_of_c_impl r m b len c pos = Ok o /\ first_from (char_at (fun x => x <> c) cs) pos o.
  Proof.
    intros R. apply (scan_up (fun x => x <> c) (fun r p => find_first_not_of_c_impl r m b len c p)); try lia.
    - intros r' p P. cbn [find_first_not_of_c_impl]. replace (p <? len)%nat with true by lia. rewrite text_rd by exact P. cbn [bind].
      destruct (Z.eqb_spec (nth p cs 0) c) as [Q|Q]; cbn [negb]; [right|left]; split; auto.
    - intros r' p P. cbn [find_first_not_of_c_impl]. now replace (p <? len)%nat with false by lia.
  Qed.
  Lemma find_last_not_of_c_text r c pos : (len < r)%nat ->
    exists o, find_last_not_of_c_impl r m b len c pos = Ok o /\ last_upto (char_at (fun x => x <> c) cs) pos o.
  Proof.
    intros R. unfold find_last_not_of_c_impl. destruct (Nat.eqb_spec len 0) as [Z0|Z0]; cbn [negb].
    - exists None. split; [reflexivity|]. now apply none_upto.
    - destruct (scan_down (fun x => x <> c) (fun r p => find_last_not_of_c_impl_1 r m b p c)) with (r := r)
        (pos := if (pos <? len - 1)%nat then pos else (len - 1)%nat) as (o & Eo & F).
      + intros r' p P. cbn [find_last_not_of_c_impl_1]. rewrite text_rd by exact P. cbn [bind].
        destruct (Z.eqb_spec (nth p cs 0) c) as [Q|Q]; cbn [negb]; [right|left]; split; auto.
      + destruct (pos <? len - 1)%nat eqn:Q; lia.
      + destruct (pos <? len - 1)%nat eqn:Q; lia.
      + exists o. split; [exact Eo|]. apply last_upto_cut; [lia|exact F].
  Qed.

  (** with a set of characters *)
  Variables (d : nat) (ms : list Z) (s : nat) (xs : list Z).
  Hypothesis B : block ms s xs.
  Hypothesis D : (depth_bound (length xs) <= d)%nat.

  Lemma find_first_of_text r pos : (len < r)%nat ->
    exists o, find_first_of_impl r d m ms b len s pos (length xs) = Ok o /\ first_from (char_at (fun x => In x xs) cs) pos o.
  Proof.
    intros R. destruct (Nat.eq_dec (length xs) 0) as [Z0|Z0].
    - destruct r as [|r]; [lia|]. cbn [find_first_of_impl]. replace (length xs =? 0)%nat with true by lia. cbn [negb andb].
      exists None. split; [reflexivity|]. intros j J (x & _ & I). destruct xs; [destruct I|discriminate Z0].
    - apply (scan_up (fun x => In x xs) (fun r p => find_first_of_impl r d m ms b len s p (length xs))); try lia.
      + intros r' p P. cbn [find_first_of_impl]. replace (p <? len)%nat with true by lia.
        replace (length xs =? 0)%nat with false by lia. cbn [negb andb]. rewrite text_rd by exact P. cbn [bind].
        destruct (among_lemma d ms s xs (nth p cs 0) B D) as (f & E & F). rewrite E. cbn [bind].
        destruct f; [left|right]; split; auto; [now apply F|]. intros I. apply F in I. discriminate.
      + intros r' p P. cbn [find_first_of_impl]. replace (p <? len)%nat with false by lia. now rewrite andb_false_r.
  Qed.
  Lemma find_first_not_of_text r pos : (len < r)%nat ->
    exists o, find_first_not_of_impl r d m ms b len s pos (length xs) = Ok o /\ first_from (char_at (fun x => ~ In x xs) cs) pos o.
  Proof.
    intros R. apply (scan_up (fun x => ~ In x xs) (fun r p => find_first_not_of_impl r d m ms b len s p (length xs))); try lia.
    - intros r' p P. cbn [find_first_not_of_impl]. replace (p <? len)%nat with true by lia. rewrite text_rd by exact P. cbn [bind].
      destruct (among_lemma d ms s xs (nth p cs 0) B D) as (f & E & F). rewrite E. cbn [bind].
      destruct f; cbn [negb]; [right|left]; split; auto; [intros I; apply I; now apply F|]. intros I. apply F in I. discriminate.
    - intros r' p P. cbn [find_first_not_of_impl]. now replace (p <? len)%nat with false by lia.
  Qed.
  Lemma find_last_of_text r pos : (len < r)%nat ->
    exists o, find_last_of_impl r d m ms b len s pos (length xs) = Ok o /\ last_upto (char_at (fun x => In x xs) cs) pos o.
  Proof.
    intros R. unfold find_last_of_impl. destruct (Nat.eqb_spec len 0) as [Z0|Z0]; cbn [negb andb].
    { exists None. split; [reflexivity|]. now apply none_upto. }
    destruct (Nat.eqb_spec (length xs) 0) as [Z1|Z1]; cbn [negb andb].
    { exists None. split; [reflexivity|]. intros j J (x & _ & I). destruct xs; [destruct I|discriminate Z1]. }
    destruct (scan_down (fun x => In x xs) (fun r p => find_last_of_impl_1 r d m ms b p s (length xs))) with (r := r)
        (pos := if (pos <? len - 1)%nat then pos else (len - 1)%nat) as (o & Eo & F).
    - intros r' p P. cbn [find_last_of_impl_1]. rewrite text_rd by exact P. cbn [bind].
      destruct (among_lemma d ms s xs (nth p cs 0) B D) as (f & E & F). rewrite E. cbn [bind].
      destruct f; [left|right]; split; auto; [now apply F|]. intros I. apply F in I. discriminate.
    - destruct (pos <? len - 1)%nat eqn:Q; lia.
    - destruct (pos <? len - 1)%nat eqn:Q; lia.
    - exists o. split; [exact Eo|]. apply last_upto_cut; [lia|exact F].
  Qed.
  Lemma find_last_not_of_text r pos : (len < r)%nat ->
    exists o, find_last_not_of_impl r d m ms b len s pos (length xs) = Ok o /\ last_upto (char_at (fun x => ~ In x xs) cs) pos o.
  Proof.
    intros R. unfold find_last_not_of_impl. destruct (Nat.eqb_spec len 0) as [Z0|Z0]; cbn [negb].
    { exists None. split; [reflexivity|]. now apply none_upto. }
    destruct (scan_down (fun x => ~ In x xs) (fun r p => find_last_not_of_impl_1 r d m ms b p s (length xs))) with (r := r)
        (pos := if (pos <? len - 1)%nat then pos else (len - 1)%nat) as (o & Eo & F).
    - intros r' p P. cbn [find_last_not_of_impl_1]. rewrite text_rd by exact P. cbn [bind].
      destruct (among_lemma d ms s xs (nth p cs 0) B D) as (f & E & F). rewrite E. cbn [bind].
      destruct f; cbn [negb]; [right|left]; split; auto; [intros I; apply I; now apply F|]. intros I. apply F in I. discriminate.
    - destruct (pos <? len - 1)%nat eqn:Q; lia.
    - destruct (pos <? len - 1)%nat eqn:Q; lia.
    - exists o. split; [exact Eo|]. apply last_upto_cut; [lia|exact F].
  Qed.
End Chars.

(** ** Searching for a string *)
(** strncmp against a pattern without null characters reports 0 exactly if the pattern is there *)
Lemma strncmp_occurs d m ms p s xs ys : block m p xs -> block ms s ys -> length xs = length ys -> ~ In 0 ys ->
  (depth_bound (length ys) <= d)%nat ->
  exists r, traits_compare d m ms p s (length ys) = Ok r /\ ((r =? 0) = true <-> xs = ys).
Proof.
  intros B1 B2 L Z0 D. unfold traits_compare.
  pose proof (upto_cstr_n m p xs B1) as C1. rewrite L in C1. pose proof (upto_cstr_n ms s ys B2) as C2.
  destruct (strncmp_lemma d m ms p s (length ys) _ _ C1 C2 D) as (r & E & R). exists r. split; [exact E|].
  rewrite (upto_nul_id ys Z0) in R. rewrite (reports_eqb _ _ R).
  destruct (upto_nul_spec xs) as (I1 & I2 & I3 & I4).
  split.
  - destruct (lexcmp (upto_nul xs) ys) eqn:Q; try discriminate. intros _. apply lexcmp_eq in Q.
    rewrite <- Q. rewrite I3. symmetry. apply firstn_all2. rewrite Q. lia.
  - intros ->. rewrite (upto_nul_id ys Z0), lexcmp_refl. reflexivity.
Qed.

Lemma occurs_sub cs ys i : occurs cs ys i <-> (i + length ys <= length cs)%nat /\ sub cs i (length ys) = ys.
Proof.
  rewrite occurs_nth. split; intros (L & E); split; try exact L.
  - apply lst_ext; [rewrite sub_length; lia|]. intros j J. rewrite sub_length in J.
    rewrite sub_nth. replace (j <? length ys)%nat with true by lia. apply E. lia.
  - intros j J. pose proof (sub_nth cs i (length ys) j) as Q. rewrite E in Q.
    replace (j <? length ys)%nat with true in Q by lia. congruence.
Qed.

Section Find.
  Variables (d : nat) (m ms : list Z) (b len s : nat) (cs ys : list Z).
  Hypothesis H : text m b len cs.
  Hypothesis B : block ms s ys.
  Hypothesis Z0 : ~ In 0 ys.
  Hypothesis D : (depth_bound (length ys) <= d)%nat.

  Lemma match_at pos : (pos + length ys <= len)%nat ->
    exists r, traits_compare d m ms (b + pos) s (length ys) = Ok r /\ ((r =? 0) = true <-> occurs cs ys pos).
  Proof.
    intros P. pose proof H as (E & _).
    destruct (strncmp_occurs d m ms (b + pos) s (sub cs pos (length ys)) ys) as (r & R1 & R2); try assumption.
    - apply block_sub. apply H.
    - rewrite sub_length. lia.
    - exists r. split; [exact R1|]. rewrite R2, occurs_sub. split; [|tauto]. intros X. split; [lia|exact X].
  Qed.

  Lemma find_step pos y zs : ys = y :: zs -> (pos + length ys <= len)%nat ->
    exists e, (x <- rd m (b + pos) ;; y <- rd ms s ;;
               (if x =? y then c <- traits_compare d m ms (b + (pos + 1)) (s + 1) (length ys - 1) ;; Ok (c =? 0) else Ok false)) = Ok e /\
      (e = true <-> occurs cs ys pos).
  Proof.
    intros Y P. pose proof H as (E & _). rewrite (text_rd m b len cs H) by (rewrite Y in P; cbn in P; lia). cbn [bind].
    assert (S0 : rd ms s = Ok y) by (apply rd_ok; rewrite <- (Nat.add_0_r s); apply B; now rewrite Y).
    rewrite S0. cbn [bind].
    assert (O : occurs cs ys pos <-> nth pos cs 0 = y /\ sub cs (pos + 1) (length zs) = zs).
    { rewrite occurs_sub. rewrite Y in *. cbn [length] in *. split.
      - intros (_ & X). split.
        + pose proof (sub_nth cs pos (S (length zs)) 0) as Q. rewrite X in Q. cbn in Q. rewrite Nat.add_0_r in Q. congruence.
        + apply lst_ext; [rewrite sub_length; lia|]. intros j J. rewrite sub_length in J. rewrite sub_nth.
          replace (j <? length zs)%nat with true by lia.
          pose proof (sub_nth cs pos (S (length zs)) (S j)) as Q. rewrite X in Q. replace (S j <? S (length zs))%nat with true in Q by lia.
          cbn in Q. rewrite Q. f_equal. lia.
      - intros (X1 & X2). split; [lia|]. apply lst_ext; [rewrite sub_length; cbn [length]; lia|]. intros j J. rewrite sub_length in J.
        rewrite sub_nth. replace (j <? S (length zs))%nat with true by lia. destruct j as [|j]; [rewrite Nat.add_0_r; exact X1|].
        cbn [nth]. rewrite <- X2. rewrite sub_nth. replace (j <? length zs)%nat with true by lia. f_equal. lia. }
    destruct (Z.eqb_spec (nth pos cs 0) y) as [Q|Q].
    - destruct (strncmp_occurs d m ms (b + (pos + 1)) (s + 1) (sub cs (pos + 1) (length zs)) zs) as (r & R1 & R2).
      + apply block_sub. apply H.
      + intros i x X. replace (s + 1 + i)%nat with (s + S i)%nat by lia. apply B. now rewrite Y.
      + rewrite sub_length. rewrite Y in P. cbn [length] in P. lia.
      + intros I. apply Z0. rewrite Y. now right.
      + rewrite Y in D. cbn [length] in D. pose proof (Nat.log2_le_mono (length zs) (S (length zs)) ltac:(lia)). unfold depth_bound in *. lia.
      + replace (length ys - 1)%nat with (length zs) by (rewrite Y; cbn [length]; lia).
        rewrite R1. cbn [bind]. eexists. split; [reflexivity|]. rewrite R2, O. tauto.
    - exists false. split; [reflexivity|]. rewrite O. split; [discriminate|tauto].
  Qed.

  Lemma find_string_text r pos : (len < r)%nat ->
    exists o, find_impl r d m ms b len s pos (length ys) = Ok o /\ first_from (occurs cs ys) pos o.
  Proof.
    intros R. pose proof H as (E & _). unfold find_impl. destruct (Nat.eqb_spec (length ys) 0) as [Y0|Y0].
    - eexists. split; [reflexivity|]. destruct (Nat.leb_spec pos len) as [C|C]; cbn [first_from].
      + repeat split; [lia| |intros; lia]. apply occurs_nth. split; [lia|]. intros; lia.
      + intros j J O. apply occurs_nth in O. lia.
    - destruct (Nat.leb_spec (length ys) len) as [C|C].
      2:{ exists None. split; [reflexivity|]. intros j J O. apply occurs_nth in O. lia. }
      destruct ys as [|y zs] eqn:Y; [cbn in Y0; lia|]. rewrite <- Y in *.
      assert (G : forall r pos, (len < r + pos)%nat -> (0 < r)%nat ->
        exists o, find_impl_1 r d m ms b len s pos (length ys) = Ok o /\ first_from (occurs cs ys) pos o).
      { clear r pos R. induction r as [|r IH]; intros pos R R0; [lia|]. cbn [find_impl_1].
        destruct (Nat.leb_spec pos (len - length ys)) as [P|P].
        2:{ exists None. split; [reflexivity|]. intros j J O. apply occurs_nth in O. lia. }
        destruct (find_step pos y zs Y ltac:(lia)) as (e & Ee & O).
        destruct (rd m (b + pos)) as [x| |]; cbn [bind] in Ee |- *; try discriminate Ee.
        destruct (rd ms s) as [y'| |]; cbn [bind] in Ee |- *; try discriminate Ee.
        rewrite Ee. cbn [bind]. destruct e.
        - exists (Some pos). split; [reflexivity|]. repeat split; [lia|now apply O|intros; lia].
        - assert (Np : ~ occurs cs ys pos) by (intros X; apply O in X; discriminate).
          destruct (Nat.eq_dec r 0) as [->|Nr]; [lia|].
          destruct (IH (pos + 1)%nat ltac:(lia) ltac:(lia)) as (o & Eo & F). exists o. split; [exact Eo|].
          destruct o as [i|]; cbn [first_from] in F |- *.
          + destruct F as (F1 & F2 & F3). repeat split; [lia|exact F2|]. intros j J.
            destruct (Nat.eq_dec j pos) as [->|Ne]; [exact Np|]. apply F3. lia.
          + intros j J. destruct (Nat.eq_dec j pos) as [->|Ne]; [exact Np|]. apply F. lia. }
      apply G; lia.
  Qed.

  Lemma rfind_string_text r pos : (len < r)%nat ->
    exists o, rfind_impl r d m ms b len s pos (length ys) = Ok o /\ last_upto (occurs cs ys) pos o.
  Proof.
    intros R. pose proof H as (E & _). unfold rfind_impl. destruct (Nat.leb_spec (length ys) len) as [C|C].
    2:{ exists None. split; [reflexivity|]. intros j J O. apply occurs_nth in O. lia. }
    assert (G : forall r pos, (pos < r)%nat -> (pos + length ys <= len)%nat ->
      exists o, rfind_impl_1 r d m ms b s pos (length ys) = Ok o /\ last_upto (occurs cs ys) pos o).
    { clear r pos R. induction r as [|r IH]; intros pos R P; [lia|]. cbn [rfind_impl_1].
      destruct (match_at pos P) as (c & Ec & O). rewrite Ec. cbn [bind]. destruct (c =? 0) eqn:Q.
      - exists (Some pos). split; [reflexivity|]. repeat split; [lia|now apply O|intros; lia].
      - assert (Np : ~ occurs cs ys pos) by (intros X; apply O in X; discriminate).
        destruct (Nat.ltb_spec 0 pos) as [P0|P0].
        + destruct (IH (pos - 1)%nat ltac:(lia) ltac:(lia)) as (o & Eo & F). exists o. split; [exact Eo|].
          destruct o as [i|]; cbn [last_upto] in F |- *.
          * destruct F as (F1 & F2 & F3). repeat split; [lia|exact F2|]. intros j J.
            destruct (Nat.eq_dec j pos) as [->|Ne2]; [exact Np|]. apply F3. lia.
          * intros j J. destruct (Nat.eq_dec j pos) as [->|Ne2]; [exact Np|]. apply F. lia.
        + exists None. split; [reflexivity|]. intros j J. now replace j with pos by lia. }
    destruct (G r (Nat.min (len - length ys) pos) ltac:(lia) ltac:(lia)) as (o & Eo & F). exists o. split; [exact Eo|].
    destruct o as [i|]; cbn [last_upto] in F |- *.
    - destruct F as (F1 & F2 & F3). repeat split; [lia|exact F2|]. intros j J X. pose proof X as X2. apply occurs_nth in X2.
      apply (F3 j); [lia|exact X].
    - intros j J X. pose proof X as X2. apply occurs_nth in X2. apply (F j); [lia|exact X].
  Qed.
End Find.

(** ** The same for strings *)
Lemma find_c_lemma : forall m b N len cs, holds m b N len cs -> forall d c pos, (depth_bound len <= d)%nat ->
  exists o, find_c_impl d m b len c pos = Ok o /\ first_from (char_at (eq c) cs) pos o.
Proof. intros; eapply find_c_text; eauto using holds_text. Qed.
Lemma rfind_c_lemma : forall m b N len cs, holds m b N len cs -> forall r c pos, (len < r)%nat ->
  exists o, rfind_c_impl r m b len c pos = Ok o /\ last_upto (char_at (eq c) cs) pos o.
Proof. intros; eapply rfind_c_text; eauto using holds_text. Qed.
Lemma find_first_not_of_c_lemma : forall m b N len cs, holds m b N len cs -> forall r c pos, (len < r)%nat ->
  exists o, find_first_not_of_c_impl r m b len c pos = Ok o /\ first_from (char_at (fun x => x <> c) cs) pos o.
Proof. intros; eapply find_first_not_of_c_text; eauto using holds_text. Qed.
Lemma find_last_not_of_c_lemma : forall m b N len cs, holds m b N len cs -> forall r c pos, (len < r)%nat ->
  exists o, find_last_not_of_c_impl r m b len c pos = Ok o /\ last_upto (char_at (fun x => x <> c) cs) pos o.
Proof. intros; eapply find_last_not_of_c_text; eauto using holds_text. Qed.
Lemma find_first_of_lemma : forall m b N len cs, holds m b N len cs -> forall d ms s xs, block ms s xs -> (depth_bound (length xs) <= d)%nat ->
  forall r pos, (len < r)%nat ->
  exists o, find_first_of_impl r d m ms b len s pos (length xs) = Ok o /\ first_from (char_at (fun x => In x xs) cs) pos o.
Proof. intros; eapply find_first_of_text; eauto using holds_text. Qed.
Lemma find_first_not_of_lemma : forall m b N len cs, holds m b N len cs -> forall d ms s xs, block ms s xs -> (depth_bound (length xs) <= d)%nat ->
  forall r pos, (len < r)%nat ->
  exists o, find_first_not_of_impl r d m ms b len s pos (length xs) = Ok o /\ first_from (char_at (fun x => ~ In x xs) cs) pos o.
Proof. intros; eapply find_first_not_of_text; eauto using holds_text. Qed.
Lemma find_last_of_lemma : forall m b N len cs, holds m b N len cs -> forall d ms s xs, block ms s xs -> (depth_bound (length xs) <= d)%nat ->
  forall r pos, (len < r)%nat ->
  exists o, find_last_of_impl r d m ms b len s pos (length xs) = Ok o /\ last_upto (char_at (fun x => In x xs) cs) pos o.
Proof. intros; eapply find_last_of_text; eauto using holds_text. Qed.
Lemma find_last_not_of_lemma : forall m b N len cs, holds m b N len cs -> forall d ms s xs, block ms s xs -> (depth_bound (length xs) <= d)%nat ->
  forall r pos, (len < r)%nat ->
  exists o, find_last_not_of_impl r d m ms b len s pos (length xs) = Ok o /\ last_upto (char_at (fun x => ~ In x xs) cs) pos o.
Proof. intros; eapply find_last_not_of_text; eauto using holds_text. Qed.
Lemma find_string_lemma : forall d m ms b N len s cs ys, holds m b N len cs -> block ms s ys -> ~ In 0 ys ->
  (depth_bound (length ys) <= d)%nat -> forall r pos, (len < r)%nat ->
  exists o, find_impl r d m ms b len s pos (length ys) = Ok o /\ first_from (occurs cs ys) pos o.
Proof. intros; eapply find_string_text; eauto using holds_text. Qed.
Lemma rfind_string_lemma : forall d m ms b N len s cs ys, holds m b N len cs -> block ms s ys -> ~ In 0 ys ->
  (depth_bound (length ys) <= d)%nat -> forall r pos, (len < r)%nat ->
  exists o, rfind_impl r d m ms b len s pos (length ys) = Ok o /\ last_upto (occurs cs ys) pos o.
Proof. intros; eapply rfind_string_text; eauto using holds_text. Qed.

(** A pattern that begins with a null character is compared no further. *)
Lemma rfind_nul_text r d m ms b len s cs ys zs : text m b len cs -> block ms s ys -> ys = 0 :: zs ->
  (depth_bound (length ys) <= d)%nat -> (0 < r)%nat ->
  (length ys <= len)%nat -> nth_error cs (len - length ys) = Some 0 ->
  rfind_impl r d m ms b len s len (length ys) = Ok (Some (len - length ys)%nat).
Proof.
  intros H B Y D R L C. pose proof H as (E & _). destruct r as [|r]; [lia|].
  unfold rfind_impl. replace (length ys <=? len)%nat with true by lia. replace (Nat.min (len - length ys) len) with (len - length ys)%nat by lia.
  cbn [rfind_impl_1]. unfold traits_compare. set (pos := (len - length ys)%nat) in *.
  pose proof (upto_cstr_n m (b + pos) (sub cs pos (length ys))) as C1.
  rewrite sub_length in C1. replace (Nat.min (length ys) (length cs - pos)) with (length ys) in C1 by lia.
  specialize (C1 ltac:(apply block_sub; apply H)).
  pose proof (upto_cstr_n ms s ys B) as C2.
  destruct (strncmp_lemma d m ms (b + pos) s (length ys) _ _ C1 C2 D) as (x & Ex & Rx).
  assert (U : upto_nul (sub cs pos (length ys)) = []).
  { pose proof (sub_nth cs pos (length ys) 0) as Q. rewrite (Nat.add_0_r pos), (nth_ne cs pos), C in Q. rewrite Y in Q |- *.
    cbn [length] in *. destruct (sub cs pos (S (length zs))) as [|q t] eqn:W; [reflexivity|]. cbn in Q. subst q. reflexivity. }
  rewrite U, Y in Rx. cbn in Rx. subst x. rewrite Ex. reflexivity.
Qed.
Lemma rfind_nul_lemma : forall r d m ms b N len s cs ys zs, holds m b N len cs -> block ms s ys -> ys = 0 :: zs ->
  (depth_bound (length ys) <= d)%nat -> (0 < r)%nat ->
  (length ys <= len)%nat -> nth_error cs (len - length ys) = Some 0 ->
  rfind_impl r d m ms b len s len (length ys) = Ok (Some (len - length ys)%nat).
Proof. intros; eapply rfind_nul_text; eauto using holds_text. Qed.

Lemma substr_plain_lemma m b N len cs : holds m b N len cs -> forall d pos n, (depth_bound len <= d)%nat ->
  (pos <= len)%nat -> ~ In 0 (skipn pos cs) ->
  substr d N m b len pos n = Ok (inr (Some (image N (sub cs pos n), length (sub cs pos n)))).
Proof.
  intros H d pos n D P Z0. rewrite (substr_lemma m b N len cs H d pos n D). replace (pos <=? len)%nat with true by lia.
  rewrite (upto_nul_id _ Z0). reflexivity.
Qed.
Lemma substr_nul_lemma m b N len d a s : holds m b N len (a ++ 0 :: s) -> ~ In 0 a -> (depth_bound len <= d)%nat ->
  substr d N m b len 0 len = Ok (inr (Some (image N a, length a))).
Proof.
  intros H Z0 D. pose proof H as (E & _). rewrite app_length in E. rewrite (substr_lemma m b N len _ H d 0 len D). cbn [Nat.leb skipn].
  rewrite (upto_nul_app _ _ Z0). rewrite firstn_all2 by lia. reflexivity.
Qed.
