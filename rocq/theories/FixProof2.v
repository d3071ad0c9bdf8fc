(** Fixed containers: filling, transforming, removing, rearranging, merging. *)
From Coq Require Import List Arith Bool Lia Permutation ZifyBool.
From Verif Require Import Base SearchModel SearchSpec SearchProof OrderSpec OrderModel ListFacts MutSpec MutProof NumSpec.
From Verif Require Import SetSpec SetProof FixModel FixSpec FixProof.
Import ListNotations.

Section Filling.
  Context {A : Type}.
  Implicit Types (c : cont A) (xs : list A).

  Lemma firstn_repeat (x : A) n m : n <= m -> firstn n (repeat x m) = repeat x n.
  Proof. revert m. induction n as [|n IH]; intros [|m] H; cbn; try lia; auto. f_equal. apply IH. lia. Qed.

  Lemma nth_repeat_some (x : A) n i : i < n -> nth_error (repeat x n) i = Some x.
  Proof. revert i. induction n as [|n IH]; intros [|i] H; cbn; try lia; auto. apply IH. lia. Qed.

  Lemma fx_fill_n_correct_lemma c n x : wf c -> n <= csize c -> fx_fill_n c n x = Ok (with_front c (repeat x n)).
  Proof.
    intros Wc Hn. unfold fx_fill_n, fx_fill_impl. apply remake_front; [exact Wc| |]; intros i.
    - rewrite repeat_length. intros H1 H2 H3. replace ((coff c <=? i) && (i <? coff c + n)) with true by lia.
      symmetry. apply rd_ok. apply nth_repeat_some. lia.
    - rewrite repeat_length. intros H1 H2. now replace ((coff c <=? i) && (i <? coff c + n)) with false by lia.
  Qed.

  Lemma fx_fill_correct_lemma c x : wf c -> fx_fill c x = Ok (with_front c (repeat x (csize c))).
  Proof. intros Wc. now apply (fx_fill_n_correct_lemma c (csize c) x). Qed.

  Lemma fx_iota_correct_lemma (c : cont nat) v : wf c ->
    fx_iota c v = Ok (with_front c (counting S v (csize c))).
  Proof.
    assert (CL : forall n v, length (counting S v n) = n) by (induction n; intros; cbn; auto).
    assert (CN : forall n v i, i < n -> nth_error (counting S v n) i = Some (v + i)).
    { induction n as [|n IH]; intros w [|i] H; cbn; try lia; [f_equal; lia|]. rewrite IH by lia. f_equal. lia. }
    intros Wc. unfold fx_iota. apply remake_front; [exact Wc| |]; intros i; rewrite CL.
    - intros H1 H2 H3. replace ((coff c <=? i) && (i <? coff c + csize c)) with true by lia.
      symmetry. apply rd_ok. apply CN. lia.
    - intros H1 H2. now replace ((coff c <=? i) && (i <? coff c + csize c)) with false by lia.
  Qed.

  Lemma draws_length {G} (gen : G -> A * G) n : forall g, length (fst (draws gen n g)) = n.
  Proof.
    induction n as [|n IH]; intros g; [reflexivity|]. cbn [draws]. destruct (gen g) as [x g1].
    specialize (IH g1). destruct (draws gen n g1) as [ys g2]. cbn in *. lia.
  Qed.

  Lemma draws_S {G} (gen : G -> A * G) n g :
    fst (draws gen (S n) g) = fst (gen g) :: fst (draws gen n (snd (gen g))).
  Proof. cbn [draws]. destruct (gen g) as [x g1]. cbn. destruct (draws gen n g1) as [ys g2]. reflexivity. Qed.

  Lemma generate_impl_1_ok {G} c (gen : G -> A * G) size : wf c -> size <= csize c ->
    forall n g args d, length args + S n = size -> n < d ->
    fx_generate_impl_1 d c gen (gen g) size args =
      Ok (Cont (paste (cbase c) (coff c) (args ++ fst (draws gen (S n) g))) (coff c) (csize c)).
  Proof.
    intros Wc Hs. pose proof Wc as Wc'. unfold wf in Wc'.
    assert (LAST : forall args x, length args + 1 = size ->
      (if static_size c =? length args + 1 then remake c size (args ++ [x]) else container_complate c (args ++ [x])) =
      Ok (Cont (paste (cbase c) (coff c) (args ++ [x])) (coff c) (csize c))).
    { intros args x E. assert (L : length (args ++ [x]) = size) by (rewrite app_length; exact E).
      destruct (Nat.eqb_spec (static_size c) (length args + 1)) as [F|F]; unfold static_size in F.
      - replace size with (csize c) by lia. rewrite <- complate_full by (unfold static_size; lia). apply complate_ok. lia.
      - apply complate_ok. lia. }
    induction n as [|n IH]; intros g args [|d] L Hd; try lia; cbn [fx_generate_impl_1]; rewrite draws_S.
    - replace (length args + 1 <? size) with false by lia. cbn [draws fst]. apply LAST. lia.
    - replace (static_size c =? length args + 1) with false by (unfold static_size; lia).
      replace (length args + 1 <? size) with true by lia.
      rewrite IH by (rewrite ?app_length; cbn [length]; lia). now rewrite <- app_assoc.
  Qed.

  Lemma fx_generate_n_correct_lemma {G} d c n (gen : G -> A * G) g : wf c -> n <= csize c -> n <= d ->
    fx_generate_n d c n gen g = Ok (with_front c (fst (draws gen n g))).
  Proof.
    intros Wc Hn Hd. rewrite with_front_all by (rewrite draws_length; lia).
    unfold fx_generate_n, fx_generate_impl. pose proof Wc as Wc'. unfold wf in Wc'.
    destruct (Nat.eqb_spec (static_size c) 0) as [E|E]; unfold static_size in E.
    - replace n with 0 by lia. cbn [draws fst]. rewrite remake_ok by (cbn; lia).
      destruct c as [base off size]. cbn [cbase coff csize] in *. destruct base; [|discriminate]. cbn [length] in *. replace size with 0 by lia.
      rewrite paste_nil. reflexivity.
    - destruct n as [|n].
      + cbn [Nat.ltb Nat.leb]. rewrite complate_ok by (cbn; lia). reflexivity.
      + cbn [Nat.ltb Nat.leb]. rewrite (generate_impl_1_ok c gen (S n) Wc Hn n g [] d) by (cbn; lia). reflexivity.
  Qed.

  Lemma fx_generate_correct_lemma {G} d c (gen : G -> A * G) g : wf c -> csize c <= d ->
    fx_generate d c gen g = Ok (with_front c (fst (draws gen (csize c) g))).
  Proof. intros Wc Hd. now apply (fx_generate_n_correct_lemma d c (csize c) gen g). Qed.

  Lemma fx_unfold_generate {G} d c (gen : G -> A * G) g : fx_unfold d c gen g = fx_generate d c gen g.
  Proof.
    unfold fx_unfold, fx_generate, fx_generate_impl. destruct (static_size c =? 0); [reflexivity|].
    destruct (0 <? csize c); [|reflexivity]. generalize (gen g) as nx, (@nil A) as args.
    induction d as [|d IH]; intros nx args; [reflexivity|]. cbn [fx_unfold_impl_1 fx_generate_impl_1].
    now rewrite IH.
  Qed.

  Lemma fx_unfold_correct_lemma {G} d c (gen : G -> A * G) g : wf c -> csize c <= d ->
    fx_unfold d c gen g = Ok (with_front c (fst (draws gen (csize c) g))).
  Proof. intros Wc Hd. rewrite fx_unfold_generate. now apply fx_generate_correct_lemma. Qed.

  (** ** recurrence *)
  Lemma follows_snoc gen (inits out : list A) : follows gen inits out -> length inits <= length out ->
    follows gen inits (out ++ [call_gen gen (length inits) out]).
  Proof.
    intros F L i x H. destruct (Nat.lt_ge_cases i (length out)) as [C|C].
    - rewrite nth_error_app1 in H by exact C. destruct (F i x H) as [F1 F2]. split; [exact F1|].
      intros Hi. rewrite (F2 Hi). f_equal. apply list_ext. intros j.
      destruct (Nat.lt_ge_cases j (length inits)) as [Cj|Cj].
      + rewrite !nth_error_slice by lia. symmetry. apply nth_error_app1. lia.
      + rewrite !nth_error_end; [reflexivity|rewrite slice_length by (rewrite ?app_length; lia); lia..].
    - assert (i = length out).
      { pose proof (nth_error_lt _ _ _ H) as B. rewrite app_length in B. cbn in B. lia. }
      subst i. rewrite nth_error_mid in H. injection H as <-. split; [lia|]. intros _.
      unfold call_gen. f_equal. unfold slice. rewrite skipn_app, firstn_app.
      rewrite !skipn_length. replace (length out - length inits - length out) with 0 by lia. cbn [skipn].
      rewrite firstn_all2 by (rewrite skipn_length; lia).
      replace (length out - (length out - length inits) - (length out - (length out - length inits))) with 0 by lia.
      cbn. now rewrite app_nil_r.
  Qed.

  Lemma follows_inits gen (inits : list A) : follows gen inits inits.
  Proof. intros i x H. split; [auto|]. intros L. pose proof (nth_error_lt _ _ _ H). lia. Qed.

  Lemma recurrence_drop_exact c inits : wf c -> length inits = csize c ->
    fx_recurrence_impl_drop c (csize c) inits = Ok (with_front c inits).
  Proof.
    intros Wc E. pose proof Wc as Wc'. unfold wf in Wc'. rewrite with_front_all by lia.
    destruct inits as [|x t]; cbn [fx_recurrence_impl_drop].
    - apply complate_ok. cbn in *. lia.
    - unfold static_size. replace (length (x :: t) <=? length (cbase c)) with true by lia.
      replace (csize c <? length (x :: t)) with false by lia. apply complate_ok. lia.
  Qed.

  Lemma fx_recurrence_partial_lemma d c gen (inits : list A) : wf c -> length inits <= csize c -> csize c < d ->
    exists out, length out = csize c /\ follows gen inits out /\ fx_recurrence d c gen inits = Ok (with_front c out).
  Proof.
    intros Wc L Hd. pose proof Wc as Wc'. unfold wf in Wc'. unfold fx_recurrence.
    destruct (Nat.eq_dec (length inits) (csize c)) as [E|N].
    - exists inits. split; [exact E|]. split; [apply follows_inits|].
      replace (length inits <? csize c) with false by lia. rewrite recurrence_drop_exact by assumption.
      now destruct (length inits <? static_size c).
    - replace (length inits <? static_size c) with true by (unfold static_size; lia).
      replace (length inits <? csize c) with true by lia.
      match goal with |- context [?f d inits] => set (impl := f) end.
      assert (G : forall n args d, length args + n = csize c -> n < d -> follows gen inits args -> length inits <= length args ->
        exists out, length out = csize c /\ follows gen inits out /\ impl d args = Ok (with_front c out)).
      { induction n as [|n IH]; intros args [|d'] La Hd' F Li; try lia; cbn [impl]; fold impl.
        - exists args. split; [lia|]. split; [exact F|]. replace (length args <? csize c) with false by lia.
          rewrite with_front_all by lia.
          destruct (Nat.eqb_spec (length args) (static_size c)) as [E|_]; [rewrite <- complate_full by exact E|]; apply complate_ok; lia.
        - replace (length args =? static_size c) with false by (unfold static_size; lia).
          replace (length args <? csize c) with true by lia.
          apply IH; rewrite ?app_length; cbn [length]; try lia. now apply follows_snoc. }
      apply (G (csize c - length inits)); [lia|lia|apply follows_inits|lia].
  Qed.

  (** ** partial_sum *)
  Lemma partial_sum_impl_ok (op : A -> A -> A) xs last c : wf c -> 0 < csize c -> last <= length xs ->
    forall n first v args d, first + n = last -> n < d -> length args < csize c ->
    fx_partial_sum_impl_1 op d xs first last c v args =
      Ok (with_front c (args ++ v :: prefix_folds op v (slice xs first last))).
  Proof.
    intros Wc Hs L. pose proof Wc as Wc'. unfold wf in Wc'.
    assert (CUT : forall args v t, length args + 1 = csize c \/ (length args < csize c /\ t = []) ->
      container_complate c (args ++ [v]) = Ok (with_front c (args ++ v :: t))).
    { intros args v t H. assert (E : firstn (csize c) (args ++ v :: t) = args ++ [v]).
      { rewrite firstn_app. rewrite firstn_all2 by lia. f_equal.
        destruct H as [H|[H1 H2]].
        - replace (csize c - length args) with 1 by lia. reflexivity.
        - subst t. apply firstn_all2. cbn. lia. }
      rewrite <- E. now apply complate_front. }
    induction n as [|n IH]; intros first v args [|d] Hn Hd La; try lia; cbn [fx_partial_sum_impl_1].
    - rewrite slice_nil by lia. cbn [prefix_folds]. replace (first =? last) with true by lia. cbn [negb andb].
      destruct (Nat.eqb_spec (static_size c) (length args + 1)) as [E|E];
        [rewrite <- complate_full by (rewrite app_length; cbn; lia)|]; apply CUT; auto.
    - destruct (Nat.eqb_spec (static_size c) (length args + 1)) as [E|E].
      + rewrite <- complate_full by (rewrite app_length; cbn; lia). apply CUT. unfold static_size in E. lia.
      + replace (first =? last) with false by lia. cbn [negb andb].
        destruct (Nat.ltb_spec (length args + 1) (csize c)) as [C|C]; [|apply CUT; lia].
        destruct (nth_error_ex xs first ltac:(lia)) as [x Hx]. rewrite (rd_ok _ _ _ Hx). cbn [bind].
        rewrite IH by (rewrite ?app_length; cbn [length]; lia). rewrite <- app_assoc.
        rewrite (slice_cons xs first last x) by (assumption || lia). reflexivity.
  Qed.

  Lemma fx_partial_sum_partial_lemma (op : A -> A -> A) d xs first last c : wf c -> valid xs first last ->
    last - first < d -> 0 < csize c \/ first = last ->
    fx_partial_sum op d xs first last c = Ok (with_front c (inclusive op (slice xs first last))).
  Proof.
    intros Wc [V1 V2] Hd H. unfold fx_partial_sum. pose proof Wc as Wc'. unfold wf in Wc'.
    destruct (Nat.eqb_spec first last) as [->|N].
    - rewrite slice_nil by lia. cbn [inclusive].
      destruct (Nat.eqb_spec (static_size c) 0) as [E|E]; [|now apply complate_nil].
      rewrite <- complate_full by (cbn; lia). now apply complate_nil.
    - replace (static_size c =? 0) with false by (unfold static_size; lia).
      destruct (nth_error_ex xs first ltac:(lia)) as [x Hx]. rewrite (rd_ok _ _ _ Hx). cbn [bind].
      rewrite (partial_sum_impl_ok op xs last c Wc ltac:(lia) V2 (last - S first)) by (cbn [length]; lia).
      rewrite (slice_cons xs first last x) by (assumption || lia). reflexivity.
  Qed.
End Filling.

Section Transforming.
  Context {A : Type}.
  Implicit Types (c : cont A).

  Lemma fx_transform_correct_lemma {B} ra d (xs : list B) first last c (op : B -> A) :
    wf c -> valid xs first last -> last - first < d ->
    fx_transform ra d xs first last c op = Ok (with_front c (map op (slice xs first last))).
  Proof.
    intros Wc V Hd. pose proof V as [V1 V2]. unfold fx_transform. destruct ra.
    - apply remake_from_ok; [exact Wc|rewrite map_length; apply slice_length; lia|]. intros i H1 H2.
      destruct (nth_error_ex xs (first + i) ltac:(lia)) as [x Hx]. rewrite (rd_ok _ _ _ Hx). cbn [bind].
      symmetry. apply rd_ok. apply map_nth_error. now rewrite nth_error_slice.
    - rewrite <- keep_some. eapply pack_complate; [exact Wc| |exact Hd].
      apply yields_range; [|now rewrite Nat.eqb_refl|lia..]. intros i Hi Hl. now rewrite ltb_neq.
  Qed.

  Lemma nth_combine {B C} (xs : list B) (ys : list C) i x y :
    nth_error xs i = Some x -> nth_error ys i = Some y -> nth_error (combine xs ys) i = Some (x, y).
  Proof.
    revert ys i. induction xs as [|a xs IH]; intros [|b ys] [|i]; cbn; try discriminate; [congruence|]. apply IH.
  Qed.

  Lemma fx_transform2_correct_lemma {B C} ra d (xs : list B) first1 last1 (ys : list C) first2 c (op : B -> C -> A) :
    wf c -> valid xs first1 last1 -> first2 + (last1 - first1) <= length ys -> last1 - first1 < d ->
    fx_transform2 ra d xs first1 last1 ys first2 c op =
      Ok (with_front c (map (fun p => op (fst p) (snd p))
            (combine (slice xs first1 last1) (slice ys first2 (first2 + (last1 - first1)))))).
  Proof.
    intros Wc V L2 Hd. pose proof V as [V1 V2]. unfold fx_transform2. destruct ra.
    - apply remake_from_ok; [exact Wc|rewrite map_length, combine_length, !slice_length by lia; lia|]. intros i H1 H2.
      destruct (nth_error_ex xs (first1 + i) ltac:(lia)) as [x Hx]. rewrite (rd_ok _ _ _ Hx). cbn [bind].
      destruct (nth_error_ex ys (first2 + i) ltac:(lia)) as [y Hy]. rewrite (rd_ok _ _ _ Hy). cbn [bind].
      symmetry. apply rd_ok. erewrite map_nth_error by (apply nth_combine; rewrite nth_error_slice by lia; eassumption).
      reflexivity.
    - apply pack_complate with (n := last1 - first1); [exact Wc| |exact Hd]. clear d Hd.
      remember (last1 - first1) as n eqn:En. revert first1 first2 En V V1 L2.
      induction n as [|n IH]; intros first1 first2 En V V1 L2.
      + rewrite (slice_nil xs) by lia. apply yields_stop. now replace (first1 =? last1) with true by lia.
      + destruct (nth_error_ex xs first1 ltac:(lia)) as [x Hx]. destruct (nth_error_ex ys first2 ltac:(lia)) as [y Hy].
        rewrite (slice_cons xs first1 last1 x) by (assumption || lia).
        rewrite (slice_cons ys first2 (first2 + S n) y) by (assumption || lia). cbn [combine map fst snd].
        apply yields_one with (s' := (S first1, S first2)).
        * replace (first1 =? last1) with false by lia. rewrite (rd_ok _ _ _ Hx). cbn [bind].
          rewrite (rd_ok _ _ _ Hy). reflexivity.
        * replace (first2 + S n) with (S first2 + n) by lia. apply IH; [lia|split; lia|lia|lia].
  Qed.

  Lemma fx_replace_copy_if_correct_lemma ra d (xs : list A) first last c p v :
    wf c -> valid xs first last -> last - first < d ->
    fx_replace_copy_if ra d xs first last c p v =
      Ok (with_front c (map (fun x => if p x then v else x) (slice xs first last))).
  Proof.
    intros Wc V Hd. pose proof V as [V1 V2]. unfold fx_replace_copy_if. destruct ra.
    - apply remake_from_ok; [exact Wc|rewrite map_length; apply slice_length; lia|]. intros i H1 H2.
      destruct (nth_error_ex xs (first + i) ltac:(lia)) as [x Hx]. rewrite (rd_ok _ _ _ Hx). cbn [bind].
      assert (E : nth_error (map (fun x => if p x then v else x) (slice xs first last)) i = Some (if p x then v else x)).
      { apply (map_nth_error (fun x => if p x then v else x)). now rewrite nth_error_slice. }
      rewrite (rd_ok _ _ _ E). now destruct (p x).
    - rewrite <- keep_some. eapply pack_complate; [exact Wc| |exact Hd].
      apply yields_range; [|now rewrite Nat.eqb_refl|lia..]. intros i Hi Hl. now rewrite ltb_neq.
  Qed.

  Lemma fx_replace_copy_correct_lemma eqb ra d (xs : list A) first last c old v :
    wf c -> valid xs first last -> last - first < d ->
    fx_replace_copy eqb ra d xs first last c old v =
      Ok (with_front c (map (fun x => if eqb x old then v else x) (slice xs first last))).
  Proof. apply (fx_replace_copy_if_correct_lemma ra d xs first last c (fun x => eqb x old) v). Qed.

  Lemma fx_clamp_range_copy_correct_lemma comp ra d (xs : list A) first last c low high :
    wf c -> valid xs first last -> last - first < d ->
    fx_clamp_range_copy comp ra d xs first last c low high =
      Ok (with_front c (map (fun x => if comp x low then low else if comp high x then high else x) (slice xs first last))).
  Proof.
    apply (fx_transform_correct_lemma ra d xs first last c (fun x => if comp x low then low else if comp high x then high else x)).
  Qed.
End Transforming.

Section Removing.
  Context {A : Type}.
  Implicit Types (c : cont A) (xs : list A).

  Lemma fx_remove_copy_if_correct_lemma d xs first last c p : wf c -> valid xs first last -> last - first < d ->
    fx_remove_copy_if d xs first last c p = Ok (with_front c (filter (fun x => negb (p x)) (slice xs first last))).
  Proof.
    intros Wc V Hd. pose proof V as [V1 V2]. unfold fx_remove_copy_if. rewrite <- keep_filter_not.
    eapply pack_complate; [exact Wc| |exact Hd]. apply yields_range; [|now rewrite Nat.eqb_refl|lia..].
    intros i Hi Hl. now rewrite ltb_neq.
  Qed.

  Lemma fx_remove_copy_correct_lemma eqb d xs first last c v : wf c -> valid xs first last -> last - first < d ->
    fx_remove_copy eqb d xs first last c v = Ok (with_front c (filter (fun x => negb (eqb x v)) (slice xs first last))).
  Proof. apply (fx_remove_copy_if_correct_lemma d xs first last c (fun x => eqb x v)). Qed.

  Lemma fx_remove_if_correct_lemma d c p : wf c -> csize c < d ->
    fx_remove_if d c p = Ok (with_front c (filter (fun x => negb (p x)) (elems c))).
  Proof. intros Wc Hd. apply fx_remove_copy_if_correct_lemma; [exact Wc|split; [lia|exact Wc]|lia]. Qed.

  Lemma fx_remove_correct_lemma eqb d c v : wf c -> csize c < d ->
    fx_remove eqb d c v = Ok (with_front c (filter (fun x => negb (eqb x v)) (elems c))).
  Proof. intros Wc Hd. apply fx_remove_copy_correct_lemma; [exact Wc|split; [lia|exact Wc]|lia]. Qed.

  Lemma unique_copy_impl_ok pred xs last c : wf c -> last <= length xs ->
    forall n first v args d, first + n = last -> n < d -> length args < csize c ->
    fx_unique_copy_impl pred d xs first last c v args =
      Ok (with_front c (args ++ v :: keep_from pred v (slice xs first last))).
  Proof.
    intros Wc L. pose proof Wc as Wc'. unfold wf in Wc'.
    assert (CUT : forall args v t, length args + 1 = csize c \/ (length args < csize c /\ t = []) ->
      container_complate c (args ++ [v]) = Ok (with_front c (args ++ v :: t))).
    { intros args v t H. assert (E : firstn (csize c) (args ++ v :: t) = args ++ [v]).
      { rewrite firstn_app. rewrite firstn_all2 by lia. f_equal.
        destruct H as [H|[H1 H2]].
        - replace (csize c - length args) with 1 by lia. reflexivity.
        - subst t. apply firstn_all2. cbn. lia. }
      rewrite <- E. now apply complate_front. }
    induction n as [|n IH]; intros first v args [|d] Hn Hd La; try lia; cbn [fx_unique_copy_impl].
    - rewrite slice_nil by lia. cbn [keep_from]. replace (first =? last) with true by lia. cbn [negb andb].
      destruct (Nat.eqb_spec (static_size c) (length args + 1)) as [E|E];
        [rewrite <- complate_full by (rewrite app_length; cbn; lia)|]; apply CUT; auto.
    - destruct (Nat.eqb_spec (static_size c) (length args + 1)) as [E|E].
      + rewrite <- complate_full by (rewrite app_length; cbn; lia). apply CUT. unfold static_size in E. lia.
      + replace (first =? last) with false by lia. cbn [negb andb].
        destruct (Nat.ltb_spec (length args + 1) (csize c)) as [C|C]; [|apply CUT; lia].
        destruct (nth_error_ex xs first ltac:(lia)) as [x Hx]. rewrite (rd_ok _ _ _ Hx). cbn [bind].
        rewrite (slice_cons xs first last x) by (assumption || lia). cbn [keep_from].
        destruct (pred v x); cbn [negb].
        * apply IH; lia.
        * rewrite IH by (rewrite ?app_length; cbn [length]; lia). now rewrite <- app_assoc.
  Qed.

  Lemma fx_unique_copy_partial_lemma pred d xs first last c : wf c -> valid xs first last ->
    last - first < d -> 0 < csize c \/ first = last ->
    fx_unique_copy pred d xs first last c = Ok (with_front c (keep_distinct pred (slice xs first last))).
  Proof.
    intros Wc [V1 V2] Hd H. unfold fx_unique_copy.
    destruct (Nat.eqb_spec first last) as [->|N].
    - rewrite slice_nil by lia. cbn [keep_distinct]. now apply complate_nil.
    - destruct (nth_error_ex xs first ltac:(lia)) as [x Hx]. rewrite (rd_ok _ _ _ Hx). cbn [bind].
      rewrite (unique_copy_impl_ok pred xs last c Wc V2 (last - S first)) by (cbn [length]; lia).
      rewrite (slice_cons xs first last x) by (assumption || lia). reflexivity.
  Qed.

  Lemma fx_unique_correct_lemma pred d c : wf c -> csize c < d ->
    fx_unique pred d c = Ok (with_front c (keep_distinct pred (elems c))).
  Proof. intros Wc Hd. apply fx_unique_copy_partial_lemma; [exact Wc|split; [lia|exact Wc]|lia|lia]. Qed.
End Removing.

Section Rearranging.
  Context {A : Type}.
  Implicit Types (c : cont A) (xs : list A).

  Lemma nth_rev xs i : i < length xs -> nth_error (rev xs) i = nth_error xs (length xs - 1 - i).
  Proof.
    revert i. induction xs as [|x t IH]; intros i H; [cbn in H; lia|]. cbn [rev length] in *.
    destruct (Nat.eq_dec i (length t)) as [->|N].
    - replace (S (length t) - 1 - length t) with 0 by lia. rewrite <- (rev_length t). apply nth_error_mid.
    - rewrite nth_error_app1 by (rewrite rev_length; lia). rewrite IH by lia.
      replace (S (length t) - 1 - i) with (S (length t - 1 - i)) by lia. reflexivity.
  Qed.

  Lemma fx_reverse_copy_correct_lemma ra d xs first last c : wf c -> valid xs first last -> last - first < d ->
    fx_reverse_copy ra d xs first last c = Ok (with_front c (rev (slice xs first last))).
  Proof.
    intros Wc V Hd. pose proof V as [V1 V2]. unfold fx_reverse_copy. destruct ra.
    - apply remake_from_ok; [exact Wc|rewrite rev_length; apply slice_length; lia|]. intros i H1 H2.
      apply rd_eq. rewrite nth_rev by (rewrite slice_length; lia). rewrite slice_length by lia.
      rewrite nth_error_slice by lia. f_equal. lia.
    - apply pack_complate with (n := last - first); [exact Wc| |exact Hd]. clear d Hd V.
      remember (last - first) as n eqn:En. revert last En V1 V2.
      induction n as [|n IH]; intros last En V1 V2.
      + rewrite slice_nil by lia. apply yields_stop. now replace (first =? last) with true by lia.
      + destruct (nth_error_ex xs (last - 1) ltac:(lia)) as [x Hx].
        replace (slice xs first last) with (slice xs first (last - 1) ++ [x]).
        2:{ rewrite <- (slice_snoc xs first (last - 1) x) by (assumption || lia). f_equal. lia. }
        rewrite rev_app_distr. cbn [rev app]. apply yields_one with (s' := last - 1).
        * replace (first =? last) with false by lia. now rewrite (rd_ok _ _ _ Hx).
        * apply IH; lia.
  Qed.

  Lemma fx_reverse_correct_lemma d c : wf c -> csize c < d -> fx_reverse d c = Ok (with_front c (rev (elems c))).
  Proof. intros Wc Hd. apply fx_reverse_copy_correct_lemma; [exact Wc|split; [lia|exact Wc]|lia]. Qed.

  Lemma pack_range_ok xs first last c d args : wf c -> valid xs first last -> last - first < d -> length args <= csize c ->
    fx_rotate_copy_impl_1 d xs first last c args =
      container_complate c (args ++ firstn (csize c - length args) (slice xs first last)).
  Proof.
    intros Wc [V1 V2] Hd L. unfold fx_rotate_copy_impl_1.
    rewrite <- (map_id (slice xs first last)), <- (keep_some (fun x => x)).
    eapply pack_ok; [exact Wc|apply complate_full| |exact Hd|exact L].
    apply yields_range; [|now rewrite Nat.eqb_refl|lia..]. intros i Hi Hl. now rewrite ltb_neq.
  Qed.

  Lemma firstn_two (n : nat) xs ys : firstn n xs ++ firstn (n - length (firstn n xs)) ys = firstn n (xs ++ ys).
  Proof.
    rewrite firstn_app, firstn_length. f_equal.
    destruct (Nat.le_ge_cases n (length xs)) as [C|C].
    - replace (n - Nat.min n (length xs)) with 0 by lia. now replace (n - length xs) with 0 by lia.
    - now replace (Nat.min n (length xs)) with (length xs) by lia.
  Qed.

  Lemma fx_rotate_copy_correct_lemma ra d xs first middle last c :
    wf c -> valid xs first last -> first <= middle <= last -> last - first < d ->
    fx_rotate_copy ra d xs first middle last c =
      Ok (with_front c (slice xs middle last ++ slice xs first middle)).
  Proof.
    intros Wc V M Hd. pose proof V as [V1 V2]. unfold fx_rotate_copy. destruct ra.
    - apply remake_from_ok; [exact Wc|rewrite app_length, !slice_length by lia; lia|]. intros i H1 H2.
      destruct (Nat.ltb_spec i (last - middle)) as [C|C]; apply rd_eq.
      + rewrite nth_error_app1 by (rewrite slice_length; lia). now rewrite nth_error_slice.
      + rewrite nth_error_app2 by (rewrite slice_length; lia). rewrite slice_length by lia.
        now rewrite nth_error_slice by lia.
    - transitivity (fx_rotate_copy_impl_1 d xs first middle c ([] ++ firstn (csize c - 0) (slice xs middle last))).
      + rewrite <- (map_id (slice xs middle last)), <- (keep_some (fun x => x)).
        eapply (pack_ok c _ _ Wc); [| |shelve|cbn; lia].
        * intros l E. pose proof (pack_range_ok xs first middle c d l Wc) as P.
          unfold static_size in E. pose proof Wc as Wc'. unfold wf in Wc'.
          unfold fx_rotate_copy_impl_1. destruct d; [lia|]. cbn [pack]. unfold static_size. rewrite E.
          now rewrite Nat.eqb_refl.
        * apply yields_range with (n := last - middle); [|now rewrite Nat.eqb_refl|lia..]. intros i Hi Hl. now rewrite ltb_neq.
        Unshelve. lia.
      + cbn [app]. rewrite Nat.sub_0_r. rewrite pack_range_ok; [|exact Wc|split; lia|lia|rewrite firstn_length; lia].
        rewrite firstn_two. now apply complate_front.
  Qed.

  Lemma fx_rotate_correct_lemma d c middle : wf c -> coff c <= middle <= coff c + csize c -> csize c < d ->
    fx_rotate d c middle =
      Ok (with_front c (slice (cbase c) middle (coff c + csize c) ++ slice (cbase c) (coff c) middle)).
  Proof. intros Wc M Hd. apply fx_rotate_copy_correct_lemma; [exact Wc|split; [lia|exact Wc]|exact M|lia]. Qed.

  (** ** swap_element *)
  Lemma swapped_exists xs i j : i < length xs -> j < length xs -> exists ys, exchanged xs i j ys.
  Proof.
    intros Hi Hj. destruct (nth_error_ex xs i Hi) as [x Hx]. destruct (nth_error_ex xs j Hj) as [y Hy].
    exists (upd (upd xs i y) j x). unfold exchanged. rewrite !upd_length. split; [reflexivity|].
    destruct (Nat.eq_dec i j) as [->|N].
    - rewrite upd_eq by (rewrite upd_length; exact Hj). split; [congruence|]. split; [congruence|].
      intros n N1 _. now rewrite !upd_neq by lia.
    - rewrite upd_eq by (rewrite upd_length; exact Hj). rewrite upd_neq, upd_eq by (assumption || lia).
      split; [congruence|]. split; [congruence|]. intros n N1 N2. now rewrite !upd_neq by lia.
  Qed.

  Lemma fx_swap_element_copy_correct_lemma ra d xs first last c pos1 pos2 :
    wf c -> valid xs first last -> first <= pos1 < last -> first <= pos2 < last -> last - first < d \/ ra = true ->
    exists out, exchanged (slice xs first last) (pos1 - first) (pos2 - first) out /\
      fx_swap_element_copy ra d xs first last c pos1 pos2 = Ok (with_front c out).
  Proof.
    intros Wc V P1 P2 Hd. pose proof V as [V1 V2].
    destruct (swapped_exists (slice xs first last) (pos1 - first) (pos2 - first)) as (out & E); [rewrite slice_length; lia..|].
    exists out. split; [exact E|]. destruct E as (E0 & E1 & E2 & E3). rewrite slice_length in E0 by lia.
    rewrite nth_error_slice in E1, E2 by lia.
    replace (first + (pos2 - first)) with pos2 in E1 by lia. replace (first + (pos1 - first)) with pos1 in E2 by lia.
    assert (AT : forall i, i < last - first ->
      (if first + i =? pos1 then rd xs pos2 else if first + i =? pos2 then rd xs pos1 else rd xs (first + i)) = rd out i).
    { intros i Hi. destruct (Nat.eqb_spec (first + i) pos1) as [H1|H1]; [|destruct (Nat.eqb_spec (first + i) pos2) as [H2|H2]]; apply rd_eq.
      - rewrite <- E1. f_equal. lia.
      - rewrite <- E2. f_equal. lia.
      - rewrite E3 by lia. symmetry. now apply nth_error_slice. }
    unfold fx_swap_element_copy. destruct ra.
    - apply remake_from_ok; [exact Wc|exact E0|]. intros i _ Hi. now apply AT.
    - destruct Hd as [Hd|]; [|discriminate]. apply pack_complate with (n := last - first); [exact Wc| |exact Hd].
      assert (G : forall n i, i + n = last - first ->
        yields (fun first => if first =? last then Ok None
                else x <- (if first =? pos1 then rd xs pos2 else if first =? pos2 then rd xs pos1 else rd xs first) ;;
                     Ok (Some (S first, Some x))) n (first + i) (skipn i out)).
      { induction n as [|n IH]; intros i Hi.
        - rewrite skipn_all2 by lia. apply yields_stop. now replace (first + i =? last) with true by lia.
        - destruct (nth_error_ex out i ltac:(lia)) as [x Hx].
          assert (Sk : skipn i out = x :: skipn (S i) out).
          { clear -Hx. revert i Hx. induction out as [|y t IH]; intros [|i] H; cbn in *; try discriminate; [congruence|]. now apply IH. }
          rewrite Sk. eapply yields_one.
          + replace (first + i =? last) with false by lia. rewrite AT by lia. rewrite (rd_ok _ _ _ Hx). reflexivity.
          + replace (S (first + i)) with (first + S i) by lia. apply IH. lia. }
      specialize (G (last - first) 0 eq_refl). now rewrite Nat.add_0_r in G.
  Qed.

  Lemma fx_swap_element_correct_lemma c pos1 pos2 : wf c ->
    coff c <= pos1 < coff c + csize c -> coff c <= pos2 < coff c + csize c ->
    exists out, exchanged (elems c) (pos1 - coff c) (pos2 - coff c) out /\
      fx_swap_element c pos1 pos2 = Ok (with_front c out).
  Proof. intros Wc P1 P2. apply fx_swap_element_copy_correct_lemma; [exact Wc|split; [lia|exact Wc]|exact P1|exact P2|now right]. Qed.

  (** ** partition *)
  Lemma partition_copy_ok p xs last c : wf c -> last <= length xs ->
    forall n first args d, first + n = last -> n < d -> length args <= csize c ->
    let now := firstn (csize c - length args) (slice xs first last) in
    fx_partition_copy d xs first last c p args =
      container_complate c (rev (filter p now) ++ args ++ filter (fun x => negb (p x)) now).
  Proof.
    intros Wc L. pose proof Wc as Wc'. unfold wf in Wc'.
    induction n as [|n IH]; intros first args [|d] Hn Hd La now; try lia; cbn [fx_partition_copy].
    - assert (E : now = []) by (subst now; rewrite slice_nil by lia; apply firstn_nil). rewrite E. cbn.
      rewrite app_nil_r. replace (first =? last) with true by lia. cbn [negb andb].
      destruct (Nat.eqb_spec (length args) (static_size c)) as [F|F]; [now rewrite complate_full|reflexivity].
    - destruct (Nat.lt_ge_cases (length args) (csize c)) as [C|C].
      + replace (length args =? static_size c) with false by (unfold static_size; lia).
        replace (first =? last) with false by lia. replace (length args <? csize c) with true by lia. cbn [negb andb].
        destruct (nth_error_ex xs first ltac:(lia)) as [x Hx]. rewrite (rd_ok _ _ _ Hx). cbn [bind].
        assert (E : now = x :: firstn (csize c - S (length args)) (slice xs (S first) last)).
        { subst now. rewrite (slice_cons xs first last x) by (assumption || lia).
          replace (csize c - length args) with (S (csize c - S (length args))) by lia. reflexivity. }
        rewrite E. cbn [filter]. destruct (p x); cbn [negb].
        * rewrite IH by (cbn [length]; lia). cbn [length rev]. rewrite <- app_assoc. reflexivity.
        * rewrite IH by (rewrite ?app_length; cbn [length]; lia). rewrite app_length. cbn [length].
          rewrite Nat.add_1_r. rewrite <- app_assoc. reflexivity.
      + assert (E : now = []) by (subst now; replace (csize c - length args) with 0 by lia; reflexivity).
        rewrite E. cbn [filter rev app]. rewrite app_nil_r. replace (length args <? csize c) with false by lia. rewrite andb_false_r.
        destruct (Nat.eqb_spec (length args) (static_size c)) as [F|F]; [now rewrite complate_full|reflexivity].
  Qed.

  Lemma filter_split_perm (p : A -> bool) xs : Permutation xs (filter p xs ++ filter (fun x => negb (p x)) xs).
  Proof.
    induction xs as [|x t IH]; [reflexivity|]. cbn [filter]. destruct (p x); cbn [negb app].
    - now constructor.
    - etransitivity; [apply perm_skip; exact IH|]. apply Permutation_middle.
  Qed.

  Lemma filter_forall (p : A -> bool) xs : forallb p (filter p xs) = true.
  Proof. induction xs as [|x t IH]; [reflexivity|]. cbn. destruct (p x) eqn:E; [cbn; now rewrite E|exact IH]. Qed.

  Lemma fx_partition_copy_correct_lemma d xs first last c p : wf c -> valid xs first last -> last - first < d ->
    exists ts fs, Permutation (firstn (csize c) (slice xs first last)) (ts ++ fs) /\
      Forall (fun x => p x = true) ts /\ Forall (fun x => p x = false) fs /\
      fx_partition_copy d xs first last c p [] = Ok (with_front c (ts ++ fs)).
  Proof.
    intros Wc [V1 V2] Hd. set (now := firstn (csize c) (slice xs first last)).
    exists (rev (filter p now)), (filter (fun x => negb (p x)) now).
    assert (P : Permutation now (rev (filter p now) ++ filter (fun x => negb (p x)) now)).
    { etransitivity; [apply (filter_split_perm p)|]. apply Permutation_app_tail. apply Permutation_rev. }
    split; [exact P|]. split; [|split].
    - apply Forall_forall. intros x Hx. apply in_rev, filter_In in Hx. tauto.
    - apply Forall_forall. intros x Hx. apply filter_In in Hx. destruct Hx as [_ Hx]. now destruct (p x).
    - rewrite (partition_copy_ok p xs last c Wc V2 (last - first)) by (cbn [length]; lia).
      cbn [length]. rewrite Nat.sub_0_r. fold now. cbn [app].
      assert (E : firstn (csize c) (rev (filter p now) ++ filter (fun x => negb (p x)) now) =
                  rev (filter p now) ++ filter (fun x => negb (p x)) now).
      { apply firstn_all2. rewrite <- (Permutation_length P). subst now. rewrite firstn_length. lia. }
      rewrite <- E at 1. now apply complate_front.
  Qed.

  Lemma fx_partition_correct_lemma d c p : wf c -> csize c < d ->
    exists ts fs, Permutation (elems c) (ts ++ fs) /\
      Forall (fun x => p x = true) ts /\ Forall (fun x => p x = false) fs /\
      fx_partition d c p = Ok (with_front c (ts ++ fs)).
  Proof.
    intros Wc Hd. destruct (fx_partition_copy_correct_lemma d (cbase c) (coff c) (coff c + csize c) c p Wc) as (ts & fs & P & H);
      [split; [lia|exact Wc]|lia|].
    exists ts, fs. split; [|exact H]. rewrite firstn_all2 in P; [exact P|].
    rewrite slice_length by exact Wc. lia.
  Qed.

  Lemma fx_stable_partition_copy_correct_lemma d xs first last c p : wf c -> valid xs first last -> last - first < d ->
    fx_stable_partition_copy d xs first last c p =
      Ok (with_front c (filter p (slice xs first last) ++ filter (fun x => negb (p x)) (slice xs first last))).
  Proof.
    intros Wc [V1 V2] Hd. unfold fx_stable_partition_copy.
    transitivity (fx_stable_partition_copy_impl_1 d xs first last c p
      ([] ++ firstn (csize c - 0) (filter p (slice xs first last)))).
    - rewrite <- keep_filter. eapply (pack_ok c _ _ Wc); [| |exact Hd|cbn; lia].
      + intros l E. unfold fx_stable_partition_copy_impl_1. destruct d; [lia|]. cbn [pack]. rewrite E. now rewrite Nat.eqb_refl.
      + apply yields_range; [|now rewrite Nat.eqb_refl|lia..]. intros i Hi Hl. now rewrite ltb_neq.
    - cbn [app]. rewrite Nat.sub_0_r. unfold fx_stable_partition_copy_impl_1.
      rewrite (pack_ok c _ _ Wc (complate_full c) (last - first) first (filter (fun x => negb (p x)) (slice xs first last)));
        [| |lia|rewrite firstn_length; lia].
      + rewrite firstn_two. now apply complate_front.
      + rewrite <- keep_filter. apply yields_range; [|now rewrite Nat.eqb_refl|lia..]. intros i Hi Hl. now rewrite ltb_neq.
  Qed.

  Lemma fx_stable_partition_correct_lemma d c p : wf c -> csize c < d ->
    fx_stable_partition d c p =
      Ok (with_front c (filter p (elems c) ++ filter (fun x => negb (p x)) (elems c))).
  Proof. intros Wc Hd. apply fx_stable_partition_copy_correct_lemma; [exact Wc|split; [lia|exact Wc]|lia]. Qed.
End Rearranging.

Section Merging.
  Context {A : Type}.
  Variable comp : A -> A -> bool.
  Implicit Types (c : cont A) (xs ys : list A).

  Lemma slice_empty xs first last : first <= last -> last <= length xs -> slice xs first last = [] -> first = last.
  Proof. intros H L E. pose proof (slice_length xs first last L) as S. rewrite E in S. cbn in S. lia. Qed.

  Lemma slice_head xs first last x t : slice xs first last = x :: t -> first <= last -> last <= length xs ->
    first < last /\ nth_error xs first = Some x /\ slice xs (S first) last = t.
  Proof.
    intros E H L. assert (C : first < last).
    { destruct (Nat.lt_ge_cases first last) as [C|C]; [exact C|]. rewrite slice_nil in E by lia. discriminate. }
    split; [exact C|]. destruct (nth_error_ex xs first ltac:(lia)) as [y Hy].
    rewrite (slice_cons xs first last y) in E by assumption. injection E as <- <-. auto.
  Qed.

  (** The steps of a merge or set operation follow the list function. *)
  Lemma yields_merge (step : nat * nat -> res (option ((nat * nat) * option A))) xs ys last1 last2
      (F : list A -> list A -> list A) :
    last1 <= length xs -> last2 <= length ys ->
    step (last1, last2) = Ok None -> F [] [] = [] ->
    (forall j y, j < last2 -> nth_error ys j = Some y ->
       (step (last1, j) = Ok None /\ forall yt, F [] (y :: yt) = []) \/
       (step (last1, j) = Ok (Some ((last1, S j), Some y)) /\ forall yt, F [] (y :: yt) = y :: F [] yt)) ->
    (forall i x, i < last1 -> nth_error xs i = Some x ->
       (step (i, last2) = Ok None /\ forall xt, F (x :: xt) [] = []) \/
       (step (i, last2) = Ok (Some ((S i, last2), Some x)) /\ forall xt, F (x :: xt) [] = x :: F xt [])) ->
    (forall i j x y, i < last1 -> j < last2 -> nth_error xs i = Some x -> nth_error ys j = Some y ->
       exists i' j' o, step (i, j) = Ok (Some ((i', j'), o)) /\
         ((i' = S i /\ j' = j) \/ (i' = i /\ j' = S j) \/ (i' = S i /\ j' = S j)) /\
         forall xt yt, F (x :: xt) (y :: yt) =
           match o with Some z => [z] | None => [] end ++
           F (if i' =? S i then xt else x :: xt) (if j' =? S j then yt else y :: yt)) ->
    forall n i j, i <= last1 -> j <= last2 -> (last1 - i) + (last2 - j) <= n ->
    exists m, m <= n /\ yields step m (i, j) (F (slice xs i last1) (slice ys j last2)).
  Proof.
    intros L1 L2 E0 F0 HY HX HXY. induction n as [|n IH]; intros i j Hi Hj Hn.
    - exists 0. split; [lia|]. rewrite !slice_nil by lia. rewrite F0. apply yields_stop.
      replace i with last1 by lia. replace j with last2 by lia. exact E0.
    - destruct (Nat.eq_dec i last1) as [->|N1]; destruct (Nat.eq_dec j last2) as [->|N2].
      + exists 0. split; [lia|]. rewrite !slice_nil by lia. rewrite F0. now apply yields_stop.
      + rewrite (slice_nil xs) by lia. destruct (nth_error_ex ys j ltac:(lia)) as [y Hy].
        rewrite (slice_cons ys j last2 y) by (assumption || lia).
        destruct (HY j y ltac:(lia) Hy) as [[E F1]|[E F1]]; rewrite F1.
        * exists 0. split; [lia|]. now apply yields_stop.
        * destruct (IH last1 (S j)) as (m & Hm & Y); [lia..|]. rewrite (slice_nil xs) in Y by lia.
          exists (S m). split; [lia|]. eapply yields_one; eassumption.
      + rewrite (slice_nil ys) by lia. destruct (nth_error_ex xs i ltac:(lia)) as [x Hx].
        rewrite (slice_cons xs i last1 x) by (assumption || lia).
        destruct (HX i x ltac:(lia) Hx) as [[E F1]|[E F1]]; rewrite F1.
        * exists 0. split; [lia|]. now apply yields_stop.
        * destruct (IH (S i) last2) as (m & Hm & Y); [lia..|]. rewrite (slice_nil ys) in Y by lia.
          exists (S m). split; [lia|]. eapply yields_one; eassumption.
      + destruct (nth_error_ex xs i ltac:(lia)) as [x Hx]. destruct (nth_error_ex ys j ltac:(lia)) as [y Hy].
        rewrite (slice_cons xs i last1 x), (slice_cons ys j last2 y) by (assumption || lia).
        destruct (HXY i j x y ltac:(lia) ltac:(lia) Hx Hy) as (i' & j' & o & E & C & F1). rewrite F1.
        assert (Y : exists m, m <= n /\ yields step m (i', j')
          (F (if i' =? S i then slice xs (S i) last1 else x :: slice xs (S i) last1)
             (if j' =? S j then slice ys (S j) last2 else y :: slice ys (S j) last2))).
        { destruct C as [[-> ->]|[[-> ->]|[-> ->]]]; rewrite ?Nat.eqb_refl;
            rewrite ?(proj2 (Nat.eqb_neq i (S i))), ?(proj2 (Nat.eqb_neq j (S j))) by lia;
            rewrite <- ?(slice_cons xs i last1 x), <- ?(slice_cons ys j last2 y) by (assumption || lia); apply IH; lia. }
        destruct Y as (m & Hm & Y). exists (S m). split; [lia|].
        destruct o as [z|]; cbn [app]; [eapply yields_one|eapply yields_none]; eassumption.
  Qed.

  Ltac mergestep := intros; repeat match goal with
    | H : nth_error _ _ = Some _ |- _ => rewrite (rd_ok _ _ _ H); clear H end; cbn [bind].

  Section Merge2.
    Variables (xs ys : list A) (first1 last1 first2 last2 d : nat) (c : cont A).
    Hypotheses (Wc : wf c) (V1 : valid xs first1 last1) (V2 : valid ys first2 last2)
      (Hd : (last1 - first1) + (last2 - first2) < d).

    Lemma fx_merge_mrg : fx_merge comp d xs first1 last1 ys first2 last2 c =
      Ok (with_front c (mrg comp (slice xs first1 last1) (slice ys first2 last2))).
    Proof.
      destruct V1 as [V11 V12], V2 as [V21 V22]. unfold fx_merge. match goal with |- pack c ?f _ _ _ _ = _ => set (step := f) end.
      destruct (yields_merge step xs ys last1 last2 (mrg comp)) with (n := (last1 - first1) + (last2 - first2)) (i := first1) (j := first2)
        as (m & Hm & Y); try assumption; try reflexivity; unfold step; cbn beta iota; rewrite ?Nat.eqb_refl; cbn [negb]; try reflexivity; try lia.
      - intros j y Hj Hy. rewrite ltb_neq by exact Hj. rewrite (rd_ok _ _ _ Hy). right. split; [reflexivity|].
        intros yt. now rewrite !mrg_nil_l.
      - intros i x Hi Hx. rewrite ltb_neq by exact Hi. rewrite (rd_ok _ _ _ Hx). right. split; [reflexivity|].
        intros xt. now rewrite !mrg_nil_r.
      - intros i j x y Hi Hj Hx Hy. rewrite !ltb_neq by assumption. cbn [negb].
        rewrite (rd_ok _ _ _ Hx), (rd_ok _ _ _ Hy). cbn [bind].
        destruct (comp y x) eqn:E; do 3 eexists; (split; [reflexivity|]); (split; [lia|]); intros xt yt;
          rewrite mrg_cons, E, Nat.eqb_refl, ?(proj2 (Nat.eqb_neq i (S i))), ?(proj2 (Nat.eqb_neq j (S j))) by lia; reflexivity.
      - eapply pack_complate; [exact Wc|exact Y|lia].
    Qed.

    Lemma setop_nn a b e : setop comp a b e [] [] = [].
    Proof. rewrite setop_nil_l. now destruct b. Qed.

    Lemma fx_set_union_setop : fx_set_union comp d xs first1 last1 ys first2 last2 c =
      Ok (with_front c (setop comp true true true (slice xs first1 last1) (slice ys first2 last2))).
    Proof.
      destruct V1 as [V11 V12], V2 as [V21 V22]. unfold fx_set_union. match goal with |- pack c ?f _ _ _ _ = _ => set (step := f) end.
      destruct (yields_merge step xs ys last1 last2 (setop comp true true true)) with (n := (last1 - first1) + (last2 - first2)) (i := first1) (j := first2)
        as (m & Hm & Y); try assumption; try reflexivity; unfold step; cbn beta iota; rewrite ?Nat.eqb_refl; cbn [negb]; try reflexivity; try lia.
      - intros j y Hj Hy. rewrite ltb_neq by exact Hj. rewrite (rd_ok _ _ _ Hy). right. split; [reflexivity|].
        intros yt. now rewrite !setop_nil_l.
      - intros i x Hi Hx. rewrite ltb_neq by exact Hi. rewrite (rd_ok _ _ _ Hx). right. split; [reflexivity|].
        intros xt. now rewrite !setop_nil_r.
      - intros i j x y Hi Hj Hx Hy. rewrite !ltb_neq by assumption. cbn [negb].
        rewrite (rd_ok _ _ _ Hx), (rd_ok _ _ _ Hy). cbn [bind].
        destruct (comp x y) eqn:E; [|destruct (comp y x) eqn:E']; do 3 eexists; (split; [reflexivity|]); (split; [lia|]); intros xt yt;
          rewrite setop_cons, E, ?E', ?Nat.eqb_refl, ?(proj2 (Nat.eqb_neq i (S i))), ?(proj2 (Nat.eqb_neq j (S j))) by lia; reflexivity.
      - eapply pack_complate; [exact Wc|exact Y|lia].
    Qed.

    Lemma fx_set_intersection_setop : fx_set_intersection comp d xs first1 last1 ys first2 last2 c =
      Ok (with_front c (setop comp false false true (slice xs first1 last1) (slice ys first2 last2))).
    Proof.
      destruct V1 as [V11 V12], V2 as [V21 V22]. unfold fx_set_intersection. match goal with |- pack c ?f _ _ _ _ = _ => set (step := f) end.
      destruct (yields_merge step xs ys last1 last2 (setop comp false false true)) with (n := (last1 - first1) + (last2 - first2)) (i := first1) (j := first2)
        as (m & Hm & Y); try assumption; try reflexivity; unfold step; cbn beta iota; rewrite ?Nat.eqb_refl; cbn [negb]; try reflexivity; try lia.
      - intros j y Hj Hy. left. split; [reflexivity|]. intros yt. now rewrite !setop_nil_l.
      - intros i x Hi Hx. rewrite ltb_neq by exact Hi. left. split; [reflexivity|].
        intros xt. now rewrite !setop_nil_r.
      - intros i j x y Hi Hj Hx Hy. rewrite !ltb_neq by assumption. cbn [negb].
        rewrite (rd_ok _ _ _ Hx), (rd_ok _ _ _ Hy). cbn [bind].
        destruct (comp x y) eqn:E; [|destruct (comp y x) eqn:E']; do 3 eexists; (split; [reflexivity|]); (split; [lia|]); intros xt yt;
          rewrite setop_cons, E, ?E', ?Nat.eqb_refl, ?(proj2 (Nat.eqb_neq i (S i))), ?(proj2 (Nat.eqb_neq j (S j))) by lia; reflexivity.
      - eapply pack_complate; [exact Wc|exact Y|lia].
    Qed.

    Lemma fx_set_difference_setop : fx_set_difference comp d xs first1 last1 ys first2 last2 c =
      Ok (with_front c (setop comp true false false (slice xs first1 last1) (slice ys first2 last2))).
    Proof.
      destruct V1 as [V11 V12], V2 as [V21 V22]. unfold fx_set_difference. match goal with |- pack c ?f _ _ _ _ = _ => set (step := f) end.
      destruct (yields_merge step xs ys last1 last2 (setop comp true false false)) with (n := (last1 - first1) + (last2 - first2)) (i := first1) (j := first2)
        as (m & Hm & Y); try assumption; try reflexivity; unfold step; cbn beta iota; rewrite ?Nat.eqb_refl; cbn [negb]; try reflexivity; try lia.
      - intros j y Hj Hy. left. split; [reflexivity|]. intros yt. now rewrite !setop_nil_l.
      - intros i x Hi Hx. rewrite ltb_neq by exact Hi. rewrite (rd_ok _ _ _ Hx). right. split; [reflexivity|].
        intros xt. now rewrite !setop_nil_r.
      - intros i j x y Hi Hj Hx Hy. rewrite !ltb_neq by assumption. cbn [negb].
        rewrite (rd_ok _ _ _ Hx), (rd_ok _ _ _ Hy). cbn [bind].
        destruct (comp x y) eqn:E; [|destruct (comp y x) eqn:E']; do 3 eexists; (split; [reflexivity|]); (split; [lia|]); intros xt yt;
          rewrite setop_cons, E, ?E', ?Nat.eqb_refl, ?(proj2 (Nat.eqb_neq i (S i))), ?(proj2 (Nat.eqb_neq j (S j))) by lia; reflexivity.
      - eapply pack_complate; [exact Wc|exact Y|lia].
    Qed.

    Lemma fx_set_symmetric_difference_setop : fx_set_symmetric_difference comp d xs first1 last1 ys first2 last2 c =
      Ok (with_front c (setop comp true true false (slice xs first1 last1) (slice ys first2 last2))).
    Proof.
      destruct V1 as [V11 V12], V2 as [V21 V22]. unfold fx_set_symmetric_difference. match goal with |- pack c ?f _ _ _ _ = _ => set (step := f) end.
      destruct (yields_merge step xs ys last1 last2 (setop comp true true false)) with (n := (last1 - first1) + (last2 - first2)) (i := first1) (j := first2)
        as (m & Hm & Y); try assumption; try reflexivity; unfold step; cbn beta iota; rewrite ?Nat.eqb_refl; cbn [negb]; try reflexivity; try lia.
      - intros j y Hj Hy. rewrite ltb_neq by exact Hj. rewrite (rd_ok _ _ _ Hy). right. split; [reflexivity|].
        intros yt. now rewrite !setop_nil_l.
      - intros i x Hi Hx. rewrite ltb_neq by exact Hi. rewrite (rd_ok _ _ _ Hx). right. split; [reflexivity|].
        intros xt. now rewrite !setop_nil_r.
      - intros i j x y Hi Hj Hx Hy. rewrite !ltb_neq by assumption. cbn [negb].
        rewrite (rd_ok _ _ _ Hx), (rd_ok _ _ _ Hy). cbn [bind].
        destruct (comp x y) eqn:E; [|destruct (comp y x) eqn:E']; do 3 eexists; (split; [reflexivity|]); (split; [lia|]); intros xt yt;
          rewrite setop_cons, E, ?E', ?Nat.eqb_refl, ?(proj2 (Nat.eqb_neq i (S i))), ?(proj2 (Nat.eqb_neq j (S j))) by lia; reflexivity.
      - eapply pack_complate; [exact Wc|exact Y|lia].
    Qed.
  End Merge2.
End Merging.

Section MergeTheorems.
  Context {A : Type}.
  Variable comp : A -> A -> bool.
  Hypothesis W : strict_weak_order comp.
  Variables (xs ys : list A) (first1 last1 first2 last2 d : nat) (c : cont A).
  Hypotheses (Wc : wf c) (V1 : valid xs first1 last1) (V2 : valid ys first2 last2)
    (S1 : sorted_range comp xs first1 last1) (S2 : sorted_range comp ys first2 last2)
    (Hd : (last1 - first1) + (last2 - first2) < d).

  Let SX : ssorted comp (slice xs first1 last1).
  Proof. now apply (sorted_range_slice comp W). Qed.
  Let SY : ssorted comp (slice ys first2 last2).
  Proof. now apply (sorted_range_slice comp W). Qed.

  Lemma fx_merge_correct_s : exists out, merge_of comp (slice xs first1 last1) (slice ys first2 last2) out /\
    fx_merge comp d xs first1 last1 ys first2 last2 c = Ok (with_front c out).
  Proof. eexists. split; [apply (merge_of_mrg comp W); assumption|]. now apply fx_merge_mrg. Qed.

  Lemma fx_set_union_correct_s : exists out, union_of comp (slice xs first1 last1) (slice ys first2 last2) out /\
    fx_set_union comp d xs first1 last1 ys first2 last2 c = Ok (with_front c out).
  Proof. eexists. split; [apply (union_of_setop comp W); assumption|]. now apply fx_set_union_setop. Qed.

  Lemma fx_set_intersection_correct_s : exists out, intersection_of comp (slice xs first1 last1) (slice ys first2 last2) out /\
    fx_set_intersection comp d xs first1 last1 ys first2 last2 c = Ok (with_front c out).
  Proof. eexists. split; [apply (intersection_of_setop comp W); assumption|]. now apply fx_set_intersection_setop. Qed.

  Lemma fx_set_difference_correct_s : exists out, difference_of comp (slice xs first1 last1) (slice ys first2 last2) out /\
    fx_set_difference comp d xs first1 last1 ys first2 last2 c = Ok (with_front c out).
  Proof. eexists. split; [apply (difference_of_setop comp W); assumption|]. now apply fx_set_difference_setop. Qed.

  Lemma fx_set_symmetric_difference_correct_s : exists out, symmetric_difference_of comp (slice xs first1 last1) (slice ys first2 last2) out /\
    fx_set_symmetric_difference comp d xs first1 last1 ys first2 last2 c = Ok (with_front c out).
  Proof. eexists. split; [apply (symmetric_difference_of_setop comp W); assumption|]. now apply fx_set_symmetric_difference_setop. Qed.
End MergeTheorems.

Lemma fx_inplace_merge_correct_lemma {A} (comp : A -> A -> bool) d (c : cont A) middle :
  strict_weak_order comp -> wf c -> coff c <= middle <= coff c + csize c ->
  sorted_range comp (cbase c) (coff c) middle -> sorted_range comp (cbase c) middle (coff c + csize c) ->
  csize c < d ->
  exists out, merge_of comp (slice (cbase c) (coff c) middle) (slice (cbase c) middle (coff c + csize c)) out /\
    fx_inplace_merge comp d c middle = Ok (with_front c out).
Proof.
  intros W Wc M S1 S2 Hd. unfold wf in Wc.
  apply (fx_merge_correct_s comp W); try assumption; [split; lia..|lia].
Qed.
