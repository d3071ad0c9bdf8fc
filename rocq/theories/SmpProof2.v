(** Proofs about sampling. *)
From Coq Require Import List Arith Bool ZArith Lia Permutation Sorted ZifyBool ZifyNat.
From Verif Require Import Base BaseProof SearchModel SearchSpec SearchProof OrderModel OrderSpec ListFacts
  MutModel MutSpec MutProof FixModel FixSpec SmpModel SmpSpec.
Import ListNotations.

(** ** Writing into the destination *)
Lemma wr_mid {A} (pre s post : list A) j x : j < length s ->
  wr (pre ++ s ++ post) (length pre + j) x = Ok (pre ++ upd s j x ++ post).
Proof.
  intros H. unfold wr. rewrite !app_length. destruct (Nat.ltb_spec (length pre + j) (length pre + (length s + length post))); [|lia].
  f_equal. clear H0. induction pre as [|a pre IH]; cbn.
  - revert j H. induction s as [|b s IHs]; intros [|j] H; cbn in *; try lia; [reflexivity|]. f_equal. apply IHs. lia.
  - f_equal. exact IH.
Qed.

Lemma wr_snoc {A} (pre s post : list A) y x :
  wr (pre ++ s ++ y :: post) (length pre + length s) x = Ok (pre ++ (s ++ [x]) ++ post).
Proof.
  unfold wr. rewrite !app_length. cbn [length].
  destruct (Nat.ltb_spec (length pre + length s) (length pre + (length s + S (length post)))); [|lia].
  f_equal. rewrite app_assoc. rewrite <- (app_length pre s), upd_app. rewrite <- !app_assoc. reflexivity.
Qed.

Lemma upd_len {A} (l : list A) i x : length (upd l i x) = length l.
Proof. apply upd_length. Qed.

(** ** The reservoir *)
Section Reservoir.
  Context {A G : Type}.
  Variable dist : G -> nat -> nat -> nat * G.

  (** Phase two on lists *)
  Fixpoint reserve (n pop : nat) (xs s : list A) (g : G) : list A * G :=
    match xs with
    | [] => (s, g)
    | x :: t => let '(j, g) := dist g 0 pop in reserve n (S pop) t (if j <? n then upd s j x else s) g
    end.

  Lemma iter_S {S R} (body : S -> res (S + R)) k s : iter (Datatypes.S k) body s =
    (x <- body s ;; match x with inl s' => iter k body s' | inr r => Ok r end).
  Proof. reflexivity. Qed.

  Lemma fill_ok (xs : list A) last n pre : forall r k first s post,
    first <= last -> last <= length xs -> r = Nat.min (n - length s) (last - first) -> length s <= n ->
    r <= length post -> r < k ->
    iter k (fun '((m, first, sample_size) : list A * nat * nat) =>
        if negb (first =? last) && negb (sample_size =? n) then
          x <- rd xs first ;; m <- wr m (length pre + sample_size) x ;; Ok (inl (m, S first, S sample_size))
        else Ok (inr (m, first, sample_size)))
      (pre ++ s ++ post, first, length s)
    = Ok (pre ++ (s ++ slice xs first (first + r)) ++ skipn r post, first + r, length s + r).
  Proof.
    induction r as [|r IH]; intros k first s post H1 H2 Hr Hs Hp Hk; (destruct k as [|k]; [lia|]); rewrite iter_S.
    - assert (E : negb (first =? last) && negb (length s =? n) = false) by lia. rewrite E. cbn [bind].
      rewrite !Nat.add_0_r, slice_nil by lia. rewrite app_nil_r. reflexivity.
    - assert (E : negb (first =? last) && negb (length s =? n) = true) by lia. rewrite E.
      destruct (nth_error_ex xs first ltac:(lia)) as [x Hx]. unfold rd at 1. rewrite Hx. cbn [bind].
      destruct post as [|y post]; [cbn in Hp; lia|]. rewrite wr_snoc. cbn [bind].
      replace (S (length s)) with (length (s ++ [x])) by (rewrite app_length; cbn; lia).
      rewrite IH by (rewrite ?app_length; cbn [length] in *; lia).
      rewrite (slice_cons xs first (first + S r) x) by (auto; lia). cbn [skipn].
      replace (S first + r) with (first + S r) by lia.
      rewrite <- !app_assoc. cbn [app]. rewrite app_length. cbn [length].
      replace (length s + 1 + r) with (length s + S r) by lia. reflexivity.
  Qed.

  Lemma replace_ok (xs : list A) last n pre post : in_interval dist -> forall r k first s pop g,
    last - first = r -> first <= last -> last <= length xs -> r < k -> (r = 0 \/ length s = n) ->
    exists s' g', reserve n pop (slice xs first last) s g = (s', g') /\ length s' = length s /\
    iter k (fun '((m, first, pop_size, g) : list A * nat * nat * G) =>
        if first =? last then Ok (inr (m, g))
        else
          let '(j, g) := dist g 0 pop_size in
          if j <? n then
            x <- rd xs first ;; m <- wr m (length pre + j) x ;; Ok (inl (m, S first, S pop_size, g))
          else Ok (inl (m, S first, S pop_size, g)))
      (pre ++ s ++ post, first, pop, g)
    = Ok (pre ++ s' ++ post, g').
  Proof.
    intros HD. induction r as [|r IH]; intros k first s pop g Hr H1 H2 Hk Hs; (destruct k as [|k]; [lia|]).
    - rewrite slice_nil by lia. exists s, g. split; [reflexivity|]. split; [reflexivity|]. rewrite iter_S.
      replace (first =? last) with true by lia. reflexivity.
    - destruct (nth_error_ex xs first ltac:(lia)) as [x Hx].
      rewrite (slice_cons xs first last x) by (auto; lia). cbn [reserve].
      rewrite iter_S. replace (first =? last) with false by lia.
      destruct (dist g 0 pop) as [j g1].
      destruct Hs as [Hs|Hs]; [lia|]. destruct (Nat.ltb_spec j n) as [C|C].
      + unfold rd at 1. rewrite Hx. cbn [bind]. rewrite wr_mid by lia. cbn [bind].
        destruct (IH k (S first) (upd s j x) (S pop) g1) as (s' & g' & E & L & F); try lia.
        { right. now rewrite upd_len. }
        rewrite upd_len in L. exists s', g'. auto.
      + cbn [bind]. destruct (IH k (S first) s (S pop) g1) as (s' & g' & E & L & F); try lia. exists s', g'. auto.
  Qed.

  Lemma sample_reservoir_eq k (xs : list A) first last m out n g :
    in_interval dist -> valid xs first last -> out + Nat.min n (last - first) <= length m -> last - first < k ->
    let r := Nat.min n (last - first) in
    exists s g', reserve n r (slice xs (first + r) last) (slice xs first (first + r)) g = (s, g') /\ length s = r /\
      sample_reservoir dist k xs first last m out n g = Ok (paste m out s, out + r, g').
  Proof.
    intros HD [V1 V2] Hm Hk r. fold r in Hm. unfold sample_reservoir.
    assert (Em : m = firstn out m ++ [] ++ skipn out m) by (cbn; now rewrite firstn_skipn).
    assert (Lp : length (firstn out m) = out) by (apply firstn_length_le; lia).
    pose proof (fill_ok xs last n (firstn out m) r k first [] (skipn out m)) as F.
    rewrite Lp in F. rewrite <- Em in F. cbn [length app] in F. rewrite F; clear F; try lia.
    2:{ rewrite skipn_length. lia. }
    cbn [bind Nat.add].
    destruct (replace_ok xs last n (firstn out m) (skipn r (skipn out m)) HD (last - (first + r)) k (first + r)
      (slice xs first (first + r)) r g) as (s & g' & E & L & F); try lia.
    { rewrite slice_length by lia. lia. }
    rewrite slice_length in L by lia. assert (L' : length s = r) by lia.
    exists s, g'. split; [exact E|]. split; [exact L'|]. rewrite Lp in F. rewrite F. cbn [bind]. f_equal. f_equal. f_equal.
    unfold paste. rewrite skipn_add. f_equal. f_equal. f_equal. lia.
  Qed.

  Lemma taken_upd (xs : list A) ps s j p x : taken xs ps s -> nth_error xs p = Some x ->
    taken xs (upd ps j p) (upd s j x).
  Proof.
    intros H E. revert j. induction H as [|q y ps s Hq H IH]; intros [|j]; cbn; try constructor; auto; apply IH.
  Qed.

  Lemma in_upd (ps : list nat) j p q : In q (upd ps j p) -> q = p \/ In q ps.
  Proof.
    revert j. induction ps as [|a ps IH]; intros [|j]; cbn; intros H; auto.
    - destruct H; auto.
    - destruct H as [H|H]; auto. apply IH in H. tauto.
  Qed.

  Lemma nodup_upd (ps : list nat) j p : NoDup ps -> ~ In p ps -> NoDup (upd ps j p).
  Proof.
    revert j. induction ps as [|a ps IH]; intros [|j] N H; cbn in *; auto.
    - inversion N; subst. constructor; tauto.
    - inversion N; subst. constructor; [|apply IH; tauto].
      intros C. apply in_upd in C. destruct C; [subst; tauto|tauto].
  Qed.

  Lemma reserve_sample (xs : list A) n : forall ys pre s ps pop g, xs = pre ++ ys ->
    taken xs ps s -> NoDup ps -> (forall p, In p ps -> p < length pre) ->
    exists ps', NoDup ps' /\ taken xs ps' (fst (reserve n pop ys s g)).
  Proof.
    induction ys as [|y ys IH]; intros pre s ps pop g E T N B; cbn [reserve]; [exists ps; auto|].
    destruct (dist g 0 pop) as [j g1].
    assert (E' : xs = (pre ++ [y]) ++ ys) by (rewrite <- app_assoc; exact E).
    destruct (j <? n).
    - apply (IH (pre ++ [y]) _ (upd ps j (length pre))); auto.
      + apply taken_upd; [exact T|]. rewrite E. apply nth_error_mid.
      + apply nodup_upd; [exact N|]. intros C. apply B in C. lia.
      + intros p Hp. rewrite app_length. cbn. apply in_upd in Hp. destruct Hp as [->|Hp]; [lia|]. apply B in Hp. lia.
    - apply (IH (pre ++ [y]) _ ps); auto. intros p Hp. rewrite app_length. cbn. apply B in Hp. lia.
  Qed.

  Lemma taken_prefix (xs ys : list A) : taken (xs ++ ys) (seq 0 (length xs)) xs.
  Proof.
    assert (X : forall pre, taken (pre ++ xs ++ ys) (seq (length pre) (length xs)) xs).
    { induction xs as [|x xs' IH]; intros pre; cbn [length seq]; constructor.
      - apply nth_error_mid.
      - specialize (IH (pre ++ [x])). rewrite app_length, <- app_assoc in IH. cbn in IH.
        replace (length pre + 1) with (S (length pre)) in IH by lia. exact IH. }
    exact (X []).
  Qed.
End Reservoir.

Lemma sample_reservoir_correct_lemma {A G} (dist : G -> nat -> nat -> nat * G) k (xs : list A) first last m out n g :
  in_interval dist -> valid xs first last -> out + Nat.min n (last - first) <= length m -> last - first < k ->
  exists s g', sample_reservoir dist k xs first last m out n g = Ok (paste m out s, out + length s, g') /\
    length s = Nat.min n (last - first) /\ sample_of (slice xs first last) s /\
    (last - first <= n -> s = slice xs first last /\ g' = g).
Proof.
  intros HD V Hm Hk. destruct (sample_reservoir_eq dist k xs first last m out n g HD V Hm Hk) as (s & g' & E & L & F).
  exists s, g'. rewrite L. split; [exact F|]. split; [reflexivity|]. destruct V as [V1 V2].
  set (r := Nat.min n (last - first)) in *. split.
  - assert (EX : slice xs first last = slice xs first (first + r) ++ slice xs (first + r) last) by (apply slice_app; lia).
    destruct (reserve_sample dist (slice xs first last) n (slice xs (first + r) last) (slice xs first (first + r))
      (slice xs first (first + r)) (seq 0 (length (slice xs first (first + r)))) r g) as (ps & N & T).
    + exact EX.
    + rewrite EX. apply taken_prefix.
    + apply seq_NoDup.
    + intros p Hp. apply in_seq in Hp. lia.
    + exists ps. rewrite E in T. auto.
  - intros C. assert (Er : first + r = last) by lia. rewrite Er, (slice_nil xs last last) in E by lia. cbn [reserve] in E.
    now inversion E.
Qed.

(** ** Selection *)
Section Selection.
  Context {A G : Type}.
  Variable dist : G -> nat -> nat -> nat * G.

  Fixpoint select (n : nat) (xs : list A) (g : G) : list A * G :=
    match xs with
    | [] => ([], g)
    | x :: t =>
        if n =? 0 then ([], g)
        else
          let '(r, g) := dist g 0 (length t) in
          if r <? n then let '(s, g) := select (n - 1) t g in (x :: s, g) else select n t g
    end.

  Lemma select_length : in_interval dist -> forall xs n g, n <= length xs -> length (fst (select n xs g)) = n.
  Proof.
    intros HD. induction xs as [|x t IH]; intros n g H; cbn [select length] in *; [cbn; lia|].
    destruct (Nat.eqb_spec n 0) as [->|N]; [reflexivity|].
    pose proof (HD g 0 (length t) ltac:(lia)) as Hr. destruct (dist g 0 (length t)) as [r g1]. cbn [fst] in Hr.
    destruct (Nat.ltb_spec r n) as [C|C].
    - specialize (IH (n - 1) g1 ltac:(lia)). destruct (select (n - 1) t g1) as [s g2]. cbn [fst length] in *. lia.
    - apply IH. lia.
  Qed.

  Lemma select_loop (xs : list A) last : in_interval dist -> forall q k first m out n g,
    last - first = q -> first <= last -> last <= length xs -> n <= q -> out + n <= length m -> q < k ->
    exists s g', select n (slice xs first last) g = (s, g') /\ length s = n /\
    iter k (fun '((m, first, out, unsampled, n, g) : list A * nat * nat * nat * nat * G) =>
      if n =? 0 then Ok (inr (m, out, g))
      else
        u <- dec unsampled ;;
        let '(r, g) := dist g 0 u in
        if r <? n then
          x <- rd xs first ;; m <- wr m out x ;; Ok (inl (m, S first, S out, u, n - 1, g))
        else Ok (inl (m, S first, out, u, n, g)))
      (m, first, out, q, n, g) = Ok (paste m out s, out + n, g').
  Proof.
    intros HD. induction q as [|q IH]; intros k first m out n g Hq H1 H2 Hn Hm Hk; (destruct k as [|k]; [lia|]).
    - rewrite slice_nil by lia. exists [], g. assert (n = 0) as -> by lia. rewrite iter_S.
      cbn [Nat.eqb bind]. rewrite paste_nil, Nat.add_0_r. auto.
    - destruct (nth_error_ex xs first ltac:(lia)) as [x Hx].
      rewrite (slice_cons xs first last x) by (auto; lia). cbn [select]. rewrite iter_S.
      destruct (Nat.eqb_spec n 0) as [->|N].
      + exists [], g. cbn [bind]. rewrite paste_nil, Nat.add_0_r. auto.
      + cbn [dec bind]. assert (L : length (slice xs (S first) last) = q) by (rewrite slice_length; lia).
        rewrite L. pose proof (HD g 0 q ltac:(lia)) as Hr. destruct (dist g 0 q) as [r g1]. cbn [fst] in Hr.
        destruct (Nat.ltb_spec r n) as [C|C].
        * unfold rd at 1. rewrite Hx. cbn [bind]. unfold wr at 1.
          destruct (Nat.ltb_spec out (length m)); [|lia]. cbn [bind].
          destruct (IH k (S first) (upd m out x) (S out) (n - 1) g1) as (s & g' & E & Ls & F); try lia.
          { rewrite upd_length. lia. }
          rewrite E. exists (x :: s), g'. split; [reflexivity|]. split; [cbn; lia|]. rewrite F.
          f_equal. f_equal. f_equal; [|lia].
          apply paste_ext; cbn [length]; try lia.
          { intros j Hj. destruct (Nat.eq_dec j out) as [->|Nj].
            - rewrite nth_paste_out by (rewrite ?upd_length; lia). rewrite upd_eq by lia. now rewrite Nat.sub_diag.
            - rewrite nth_paste_in by (rewrite ?upd_length; lia). replace (j - out) with (S (j - S out)) by lia. reflexivity. }
          { intros j Hj. rewrite nth_paste_out by (rewrite ?upd_length; lia). apply upd_neq. lia. }
        * cbn [bind]. destruct (IH k (S first) m out n g1) as (s & g' & E & Ls & F); try lia. exists s, g'. auto.
  Qed.

  Lemma select_ordered (xs : list A) : forall ys pre n g, xs = pre ++ ys ->
    exists ps, StronglySorted lt ps /\ (forall p, In p ps -> length pre <= p) /\ taken xs ps (fst (select n ys g)).
  Proof.
    induction ys as [|y ys IH]; intros pre n g E; cbn [select].
    - exists []. repeat split; [constructor|intros p []|constructor].
    - destruct (n =? 0); [exists []; repeat split; [constructor|intros p []|constructor]|].
      destruct (dist g 0 (length ys)) as [r g1].
      assert (E' : xs = (pre ++ [y]) ++ ys) by (rewrite <- app_assoc; exact E).
      destruct (r <? n).
      + destruct (IH (pre ++ [y]) (n - 1) g1 E') as (ps & S1 & S2 & S3).
        destruct (select (n - 1) ys g1) as [s g2]. cbn [fst] in *. exists (length pre :: ps).
        rewrite app_length in S2. cbn [length] in S2. repeat split.
        * constructor; [exact S1|]. apply Forall_forall. intros p Hp. apply S2 in Hp. lia.
        * intros p [<-|Hp]; [lia|]. apply S2 in Hp. lia.
        * constructor; [rewrite E; apply nth_error_mid|exact S3].
      + destruct (IH (pre ++ [y]) n g1 E') as (ps & S1 & S2 & S3). exists ps. repeat split; auto.
        intros p Hp. apply S2 in Hp. rewrite app_length in Hp. cbn in Hp. lia.
  Qed.
End Selection.

Lemma sample_selection_eq {A G} (dist : G -> nat -> nat -> nat * G) k (xs : list A) first last m out n g :
  in_interval dist -> valid xs first last -> out + Nat.min n (last - first) <= length m -> last - first < k ->
  exists s g', select dist (Nat.min n (last - first)) (slice xs first last) g = (s, g') /\
    length s = Nat.min n (last - first) /\
    sample_selection dist k xs first last m out n g = Ok (paste m out s, out + length s, g').
Proof.
  intros HD [V1 V2] Hm Hk.
  destruct (select_loop dist xs last HD (last - first) k first m out (Nat.min n (last - first)) g)
    as (s & g' & E & L & F); try lia.
  exists s, g'. split; [exact E|]. split; [exact L|]. rewrite L. exact F.
Qed.

Lemma sample_selection_correct_lemma {A G} (dist : G -> nat -> nat -> nat * G) k (xs : list A) first last m out n g :
  in_interval dist -> valid xs first last -> out + Nat.min n (last - first) <= length m -> last - first < k ->
  exists s g', sample_selection dist k xs first last m out n g = Ok (paste m out s, out + length s, g') /\
    length s = Nat.min n (last - first) /\ ordered_sample_of (slice xs first last) s.
Proof.
  intros HD V Hm Hk. destruct (sample_selection_eq dist k xs first last m out n g HD V Hm Hk) as (s & g' & E & L & F).
  exists s, g'. split; [exact F|]. split; [exact L|].
  destruct (select_ordered dist (slice xs first last) (slice xs first last) [] (Nat.min n (last - first)) g eq_refl)
    as (ps & S1 & _ & S3).
  rewrite E in S3. exists ps. auto.
Qed.

(** ** Uniformity *)
Definition total (f : nat -> nat) (w : nat) : nat := list_sum (map f (seq 0 w)).

Lemma lsum_cons a l : list_sum (a :: l) = a + list_sum l.
Proof. reflexivity. Qed.

Lemma list_sum_map_ext {A} (f g : A -> nat) (l : list A) : (forall x, In x l -> f x = g x) -> list_sum (map f l) = list_sum (map g l).
Proof.
  intros H. induction l as [|x l IH]; [reflexivity|]. cbn [map]. rewrite !lsum_cons. rewrite (H x) by now left. rewrite IH; [reflexivity|].
  intros y Hy. apply H. now right.
Qed.

Lemma total_const c a w : list_sum (map (fun _ => c) (seq a w)) = w * c.
Proof. revert a. induction w as [|w IH]; intros a; cbn [seq map]; [reflexivity|]. rewrite lsum_cons, IH. lia. Qed.

Lemma total_scale a (f g : nat -> nat) w : (forall j, j < w -> a * f j = g j) -> a * total f w = total g w.
Proof.
  intros H. unfold total. rewrite <- (list_sum_map_ext (fun j => a * f j) g).
  2:{ intros j Hj. apply in_seq in Hj. apply H. lia. }
  generalize (seq 0 w). intros l. induction l as [|x l IH]; cbn [map]; [apply Nat.mul_0_r|].
  rewrite !lsum_cons, <- IH. apply Nat.mul_add_distr_l.
Qed.

Lemma total_below c e n w : n <= w -> total (fun r => if r <? n then c else e) w = n * c + (w - n) * e.
Proof.
  intros H. unfold total. replace w with (n + (w - n)) at 1 by lia. rewrite seq_app, map_app, list_sum_app. f_equal.
  - rewrite (list_sum_map_ext _ (fun _ => c)); [apply total_const|]. intros r Hr. apply in_seq in Hr.
    destruct (Nat.ltb_spec r n); [reflexivity|lia].
  - rewrite (list_sum_map_ext _ (fun _ => e)); [apply total_const|]. intros r Hr. apply in_seq in Hr.
    destruct (Nat.ltb_spec r n); [lia|reflexivity].
Qed.

Lemma total_except c j w : j < w -> total (fun r => if r =? j then 0 else c) w = (w - 1) * c.
Proof.
  intros H. unfold total. replace w with (j + (1 + (w - j - 1))) at 1 by lia. rewrite !seq_app, !map_app, !list_sum_app.
  rewrite (list_sum_map_ext _ (fun _ => c) (seq 0 j)).
  2:{ intros r Hr. apply in_seq in Hr. destruct (Nat.eqb_spec r j); [lia|reflexivity]. }
  cbn [seq map Nat.add]. rewrite lsum_cons, Nat.eqb_refl. change (list_sum []) with 0.
  rewrite (list_sum_map_ext _ (fun _ => c) (seq _ (w - j - 1))).
  2:{ intros r Hr. apply in_seq in Hr. destruct (Nat.eqb_spec r j); [lia|reflexivity]. }
  rewrite !total_const. nia.
Qed.

Lemma count_flat {A} (p : list A -> bool) (L : list (list A)) : forall rs,
  count p (flat_map (fun r => map (cons r) L) rs) = list_sum (map (fun r => count (fun l => p (r :: l)) L) rs).
Proof.
  induction rs as [|r rs IH]; [reflexivity|]. cbn [flat_map map]. unfold count in *.
  rewrite filter_app, app_length, IH. rewrite lsum_cons.
  f_equal. clear IH. induction L as [|l L IHL]; [reflexivity|]. cbn. destruct (p (r :: l)); cbn; now rewrite IHL.
Qed.

Lemma count_draws (p : list nat -> bool) w ws :
  count p (all_draws (w :: ws)) = total (fun r => count (fun l => p (r :: l)) (all_draws ws)) w.
Proof. cbn [all_draws]. apply count_flat. Qed.

Lemma count_true {A} (p : A -> bool) (l : list A) : (forall x, p x = true) -> count p l = length l.
Proof. intros H. unfold count. induction l as [|x l IH]; [reflexivity|]. cbn. rewrite H. cbn. now rewrite IH. Qed.
Lemma count_false {A} (p : A -> bool) (l : list A) : (forall x, p x = false) -> count p l = 0.
Proof. intros H. unfold count. induction l as [|x l IH]; [reflexivity|]. cbn. rewrite H. exact IH. Qed.
Lemma count_ext {A} (p q : A -> bool) (l : list A) : (forall x, p x = q x) -> count p l = count q l.
Proof. intros H. unfold count. induction l as [|x l IH]; [reflexivity|]. cbn. rewrite H. destruct (q x); cbn; now rewrite IH. Qed.

Lemma length_draws w ws : length (all_draws (w :: ws)) = w * length (all_draws ws).
Proof.
  rewrite <- (count_true (fun _ => true) (all_draws (w :: ws)) (fun _ => eq_refl)). rewrite count_draws. unfold total.
  rewrite (list_sum_map_ext _ (fun _ => length (all_draws ws))); [apply total_const|]. intros r _. now apply count_true.
Qed.

Lemma scripted_in : in_interval scripted.
Proof.
  intros [|r g] a b H; cbn [scripted fst]; [lia|]. pose proof (Nat.mod_upper_bound r (b - a + 1)). lia.
Qed.

Lemma scripted_cons r g b : r <= b -> scripted (r :: g) 0 b = (r, g).
Proof. intros H. cbn [scripted]. rewrite Nat.mod_small by lia. reflexivity. Qed.

Definition has (i : nat) (s : list nat) : bool := existsb (Nat.eqb i) s.

Lemma has_in i s : has i s = true <-> In i s.
Proof.
  unfold has. rewrite existsb_exists. split.
  - intros (x & H & E). apply Nat.eqb_eq in E. now subst.
  - intros H. exists i. split; [exact H|]. apply Nat.eqb_refl.
Qed.

Lemma has_not i s : has i s = false <-> ~ In i s.
Proof. rewrite <- has_in. destruct (has i s); split; congruence. Qed.

(** A sampled element that is still there. *)
Lemma in_upd_other (s : list nat) j q x i : nth_error s q = Some i -> NoDup s -> x <> i -> (In i (upd s j x) <-> j <> q).
Proof.
  revert s j. induction q as [|q IH]; intros [|a s] j E N D; cbn in E; try discriminate.
  - inversion E; subst a. inversion N; subst. destruct j as [|j]; cbn.
    + split; [intros [H|H]; congruence|tauto].
    + split; [lia|auto].
  - inversion N; subst. apply nth_error_In in E as I. destruct j as [|j]; cbn.
    + split; [lia|auto].
    + assert (X : S j <> S q <-> j <> q) by lia. rewrite X, <- (IH s j E) by auto.
      split; [intros [->|H]; [contradiction|exact H]|auto].
Qed.

Section ReservoirUniform.
  Variable n : nat.

  Definition keeps (i pop r : nat) (s g : list nat) : bool := has i (fst (reserve scripted n pop (seq pop r) s g)).

  Definition fresh_below (pop : nat) (s : list nat) : Prop := length s = n /\ NoDup s /\ forall p, In p s -> p < pop.

  Lemma fresh_upd pop s j : fresh_below pop s -> fresh_below (S pop) (if j <? n then upd s j pop else s).
  Proof.
    intros (L & N & B). destruct (j <? n).
    - split; [now rewrite upd_len|]. split; [apply nodup_upd; [exact N|]; intros C; apply B in C; lia|].
      intros p Hp. apply in_upd in Hp. destruct Hp as [->|Hp]; [lia|]. apply B in Hp. lia.
    - split; [exact L|]. split; [exact N|]. intros p Hp. apply B in Hp. lia.
  Qed.

  Lemma keeps_S i pop r s j g : j <= pop ->
    keeps i pop (S r) s (j :: g) = keeps i (S pop) r (if j <? n then upd s j pop else s) g.
  Proof. intros H. unfold keeps. cbn [seq reserve]. rewrite scripted_cons by exact H. reflexivity. Qed.

  (** Neither sampled now nor later. *)
  Lemma keeps_gone i : forall r pop s g, fresh_below pop s -> i < pop -> ~ In i s -> keeps i pop r s g = false.
  Proof.
    induction r as [|r IH]; intros pop s g F H N.
    - unfold keeps. cbn. now apply has_not.
    - unfold keeps. cbn [seq reserve]. destruct (scripted g 0 pop) as [j g1].
      apply (IH (S pop)); [now apply fresh_upd|lia|].
      destruct (j <? n); [|exact N]. intros C. apply in_upd in C. destruct C; [lia|contradiction].
  Qed.

  Lemma survive i : forall r pop s, fresh_below pop s -> n <= pop -> In i s ->
    (pop + r) * count (keeps i pop r s) (all_draws (seq (S pop) r)) = pop * length (all_draws (seq (S pop) r)).
  Proof.
    induction r as [|r IH]; intros pop s F Hp Hi.
    - cbn [seq all_draws]. unfold count. cbn [filter].
      assert (E : keeps i pop 0 s [] = true) by (unfold keeps; cbn [seq reserve fst]; now apply has_in).
      rewrite E. cbn [length]. lia.
    - cbn [seq]. rewrite count_draws, length_draws.
      apply In_nth_error in Hi. destruct Hi as [q Hq].
      assert (Hqn : q < n). { destruct F as (L & _). rewrite <- L. now apply nth_error_lt in Hq. }
      assert (Hi : i < pop). { destruct F as (_ & _ & B). apply B. now apply nth_error_In in Hq. }
      assert (X : exists c, (S pop + r) * c = S pop * length (all_draws (seq (S (S pop)) r)) /\
        total (fun j => count (fun l => keeps i pop (S r) s (j :: l)) (all_draws (seq (S (S pop)) r))) (S pop) = pop * c).
      { exists (count (keeps i (S pop) r s) (all_draws (seq (S (S pop)) r))).
        assert (F' : fresh_below (S pop) s). { destruct F as (L & N & B). split; [|split]; auto. intros p Hx. apply B in Hx. lia. }
        split.
        { apply IH; [exact F'|lia|]. now apply nth_error_In in Hq. }
        transitivity (total (fun j => if j =? q then 0 else count (keeps i (S pop) r s) (all_draws (seq (S (S pop)) r))) (S pop)).
        2:{ rewrite total_except by lia. f_equal. lia. }
        unfold total. apply list_sum_map_ext. intros j Hj. apply in_seq in Hj.
        rewrite (count_ext _ (keeps i (S pop) r (if j <? n then upd s j pop else s))) by (intros; apply keeps_S; lia).
        pose proof (fresh_upd pop s j F) as Fj.
        destruct (Nat.eqb_spec j q) as [->|Nq].
        - apply count_false. intros g. apply keeps_gone; [exact Fj|lia|]. destruct (Nat.ltb_spec q n); [|lia].
          rewrite (in_upd_other s q q pop i Hq); [tauto|apply F|lia].
        - assert (I' : In i (if j <? n then upd s j pop else s)).
          { destruct (j <? n); [|now apply nth_error_In in Hq]. apply (in_upd_other s j q pop i Hq); [apply F|lia|exact Nq]. }
          pose proof (IH (S pop) _ Fj ltac:(lia) I') as E1.
          pose proof (IH (S pop) s F' ltac:(lia) ltac:(now apply nth_error_In in Hq)) as E2. nia. }
      destruct X as (c & E1 & E2). rewrite E2. nia.
  Qed.

  Lemma arrive i : forall r pop s, fresh_below pop s -> n <= pop -> pop <= i < pop + r ->
    (pop + r) * count (keeps i pop r s) (all_draws (seq (S pop) r)) = n * length (all_draws (seq (S pop) r)).
  Proof.
    induction r as [|r IH]; intros pop s F Hp Hi; [lia|].
    cbn [seq]. rewrite count_draws, length_draws. set (T := length (all_draws (seq (S (S pop)) r))) in *.
    destruct (Nat.eq_dec i pop) as [->|Ni].
    - assert (X : forall j, j <= pop -> (S pop + r) * count (fun l => keeps pop pop (S r) s (j :: l)) (all_draws (seq (S (S pop)) r))
        = if j <? n then S pop * T else 0).
      { intros j Hj.
        rewrite (count_ext _ (keeps pop (S pop) r (if j <? n then upd s j pop else s))) by (intros; apply keeps_S; lia).
        pose proof (fresh_upd pop s j F) as Fj. destruct F as (L & N & B). destruct (Nat.ltb_spec j n) as [C|C].
        - apply survive; [exact Fj|lia|]. apply nth_error_In with j. apply upd_eq. lia.
        - rewrite count_false; [lia|]. intros g. apply keeps_gone; [exact Fj|lia|]. intros I. apply B in I. lia. }
      assert (Y : (S pop + r) * total (fun j => count (fun l => keeps pop pop (S r) s (j :: l)) (all_draws (seq (S (S pop)) r))) (S pop)
        = total (fun j => if j <? n then S pop * T else 0) (S pop)).
      { apply total_scale. intros j Hj. apply X. lia. }
      rewrite total_below in Y by lia. nia.
    - assert (X : forall j, j <= pop -> (S pop + r) * count (fun l => keeps i pop (S r) s (j :: l)) (all_draws (seq (S (S pop)) r)) = n * T).
      { intros j Hj.
        rewrite (count_ext _ (keeps i (S pop) r (if j <? n then upd s j pop else s))) by (intros; apply keeps_S; lia).
        apply IH; [now apply fresh_upd|lia|lia]. }
      assert (Y : (S pop + r) * total (fun j => count (fun l => keeps i pop (S r) s (j :: l)) (all_draws (seq (S (S pop)) r))) (S pop)
        = total (fun j => n * T) (S pop)).
      { apply total_scale. intros j Hj. apply X. lia. }
      unfold total in Y at 2. rewrite total_const in Y. nia.
  Qed.
End ReservoirUniform.

Lemma slice_seq a b n : b <= n -> slice (seq 0 n) a b = seq a (b - a).
Proof.
  intros H. unfold slice. destruct (Nat.le_gt_cases a n) as [C|C].
  - replace n with (a + ((b - a) + (n - a - (b - a)))) by lia. rewrite seq_app.
    rewrite skipn_app, skipn_all2 by (rewrite seq_length; lia). rewrite seq_length, Nat.sub_diag. cbn [app skipn Nat.add].
    rewrite seq_app, firstn_app, firstn_all2 by (rewrite seq_length; lia). rewrite seq_length, Nat.sub_diag.
    cbn [firstn]. now rewrite app_nil_r.
  - replace (b - a) with 0 by lia. reflexivity.
Qed.

Lemma paste_all {A} (m s : list A) : length s = length m -> paste m 0 s = s.
Proof. intros H. unfold paste. cbn [firstn app Nat.add]. rewrite skipn_all2 by lia. apply app_nil_r. Qed.

Lemma sample_reservoir_uniform_lemma N n k i : n <= N -> i < N -> N < k ->
  N * count (fun g => match sample_reservoir scripted k (seq 0 N) 0 N (repeat 0 n) 0 n g with
                      | Ok (s, _, _) => existsb (Nat.eqb i) s
                      | _ => false
                      end) (all_draws (seq (S n) (N - n)))
  = n * length (all_draws (seq (S n) (N - n))).
Proof.
  intros Hn Hi Hk.
  rewrite (count_ext _ (keeps n i n (N - n) (seq 0 n))).
  2:{ intros g. destruct (sample_reservoir_eq scripted k (seq 0 N) 0 N (repeat 0 n) 0 n g) as (s & g' & E & L & F).
      - exact scripted_in.
      - split; [lia|]. rewrite seq_length. lia.
      - rewrite repeat_length. lia.
      - lia.
      - rewrite F. rewrite Nat.min_l in E, L by lia. cbn [Nat.add] in E.
        rewrite !slice_seq in E by lia. rewrite Nat.sub_0_r in E.
        unfold keeps. rewrite E. cbn [fst]. rewrite paste_all by (rewrite repeat_length; exact L). reflexivity. }
  assert (F : fresh_below n n (seq 0 n)).
  { split; [apply seq_length|]. split; [apply seq_NoDup|]. intros p Hp. apply in_seq in Hp. lia. }
  replace N with (n + (N - n)) at 1 by lia.
  destruct (Nat.lt_ge_cases i n) as [C|C].
  - apply survive; [exact F|lia|]. apply in_seq. lia.
  - apply arrive; [exact F|lia|lia].
Qed.

Definition picks (i n a r : nat) (g : list nat) : bool := has i (fst (select scripted n (seq a r) g)).

Lemma picks_low i : forall r n a g, i < a -> picks i n a r g = false.
Proof.
  induction r as [|r IH]; intros n a g H; unfold picks in *; cbn [seq select]; [reflexivity|].
  destruct (n =? 0); [reflexivity|]. destruct (scripted g 0 (length (seq (S a) r))) as [q g1].
  specialize (IH (n - 1) (S a) g1 ltac:(lia)) as H1. specialize (IH n (S a) g1 ltac:(lia)) as H2.
  destruct (q <? n); [|exact H2]. destruct (select scripted (n - 1) (seq (S a) r) g1) as [s g2]. cbn [fst] in *.
  unfold has in *. cbn [existsb]. rewrite H1. destruct (Nat.eqb_spec i a); [lia|reflexivity].
Qed.

Fixpoint down (r : nat) : list nat := match r with 0 => [] | S r' => S r' :: down r' end.

Lemma picks_S i n a r q g : q <= r -> n <> 0 -> picks i n a (S r) (q :: g) =
  if q <? n then (i =? a) || picks i (n - 1) (S a) r g else picks i n (S a) r g.
Proof.
  intros Hq Hn. unfold picks. cbn [seq select]. destruct (Nat.eqb_spec n 0); [lia|]. rewrite seq_length, scripted_cons by exact Hq.
  destruct (q <? n); [|reflexivity]. destruct (select scripted (n - 1) (seq (S a) r) g) as [s g2]. reflexivity.
Qed.

Lemma pick_uniform : forall r n a i, n <= S r -> a <= i <= a + r ->
  count (picks i n a (S r)) (all_draws (down (S r))) = n * length (all_draws (down r)).
Proof.
  induction r as [|r IH]; intros n a i Hn Hi.
  - assert (i = a) as -> by lia. cbn [down]. rewrite count_draws. destruct n as [|[|n]]; [reflexivity| |lia].
    unfold total. cbn [seq map list_sum fold_right all_draws]. rewrite (count_ext _ (fun _ => true)); [reflexivity|].
    intros g. rewrite picks_S by lia. cbn. now rewrite Nat.eqb_refl.
  - destruct (Nat.eq_dec n 0) as [->|Nn].
    { rewrite count_false; [lia|]. intros g. unfold picks. reflexivity. }
    change (down (S (S r))) with (S (S r) :: down (S r)). rewrite count_draws.
    set (D := all_draws (down (S r))).
    transitivity (total (fun q => if q <? n then count (fun l => (i =? a) || picks i (n - 1) (S a) (S r) l) D
                                  else count (picks i n (S a) (S r)) D) (S (S r))).
    { unfold total. apply list_sum_map_ext. intros q Hq. apply in_seq in Hq. destruct (q <? n) eqn:E.
      - apply count_ext. intros l. rewrite picks_S by lia. now rewrite E.
      - apply count_ext. intros l. rewrite picks_S by lia. now rewrite E. }
    rewrite total_below by lia. destruct (Nat.eqb_spec i a) as [->|Ni].
    + cbn [orb]. rewrite (count_true (fun _ => true)) by reflexivity.
      rewrite (count_false (picks a n (S a) (S r))) by (intros; apply picks_low; lia). lia.
    + cbn [orb]. rewrite (count_ext _ (picks i (n - 1) (S a) (S r))) by reflexivity.
      unfold D. rewrite (IH (n - 1) (S a) i) by lia.
      destruct (Nat.eq_dec n (S (S r))) as [->|N2].
      * replace (S (S r) - S (S r)) with 0 by lia. change (down (S r)) with (S r :: down r). rewrite length_draws. nia.
      * rewrite (IH n (S a) i) by lia. change (down (S r)) with (S r :: down r). rewrite length_draws. nia.
Qed.

Lemma down_map N : map (fun j => N - j) (seq 0 N) = down N.
Proof.
  induction N as [|N IH]; [reflexivity|]. cbn [seq map down]. rewrite Nat.sub_0_r. f_equal.
  rewrite <- seq_shift, map_map, <- IH. apply map_ext. intros j. lia.
Qed.

Lemma sample_selection_uniform_lemma N n k i : n <= N -> i < N -> N < k ->
  N * count (fun g => match sample_selection scripted k (seq 0 N) 0 N (repeat 0 n) 0 n g with
                      | Ok (s, _, _) => existsb (Nat.eqb i) s
                      | _ => false
                      end) (all_draws (map (fun j => N - j) (seq 0 N)))
  = n * length (all_draws (map (fun j => N - j) (seq 0 N))).
Proof.
  intros Hn Hi Hk. rewrite down_map.
  rewrite (count_ext _ (picks i n 0 N)).
  2:{ intros g. destruct (sample_selection_eq scripted k (seq 0 N) 0 N (repeat 0 n) 0 n g) as (s & g' & E & L & F).
      - exact scripted_in.
      - split; [lia|]. rewrite seq_length. lia.
      - rewrite repeat_length. lia.
      - lia.
      - rewrite F. rewrite Nat.sub_0_r, Nat.min_l in E, L by lia. rewrite slice_seq, Nat.sub_0_r in E by lia.
        unfold picks. rewrite E. cbn [fst]. rewrite paste_all by (rewrite repeat_length; exact L). reflexivity. }
  destruct N as [|r]; [lia|]. rewrite pick_uniform by lia. change (down (S r)) with (S r :: down r). rewrite length_draws. lia.
Qed.
