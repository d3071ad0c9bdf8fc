(** Proofs about StrModel.v: the functions that only read. *)
From Coq Require Import List Arith ZArith Bool Lia.
From Coq Require Import ZifyBool ZifyNat.
From Verif Require Import Base BaseProof BitModel BitProof ShaModel SearchModel SearchSpec SearchProof OrderModel OrderSpec
  OrderProof MutProof StrModel StrSpec.
Import ListNotations.
Open Scope Z_scope.

(** ** Loop rule for the doubling recursion *)
Lemma dbl_rule {S} (halt : S -> res (option S)) (step : S -> res S) (I : S -> Prop) (mu : S -> nat) (Q : S -> Prop) :
  (forall s s', halt s = Ok (Some s') -> halt s' = Ok (Some s')) ->
  (forall s, I s -> (exists s', halt s = Ok (Some s') /\ Q s') \/
     (halt s = Ok None /\ wp (step s) (fun s1 => I s1 /\ (mu s1 < mu s)%nat))) ->
  forall d s, I s -> (depth_bound (mu s) <= d)%nat -> wp (dbl halt step d s 1) Q.
Proof.
  intros Hi HI d s Hs Hd.
  assert (L : forall k s, I s -> (mu s < k)%nat -> exists s', loop halt step k s = Ok s' /\ Q s').
  { clear d s Hs Hd. induction k as [|k IH]; intros s Hs Hk; [lia|].
    cbn [loop]. destruct (HI s Hs) as [(s' & E & HQ) | (E & W)]; rewrite E; cbn [bind].
    - eauto.
    - apply wp_out in W. destruct W as (s1 & E1 & H1 & H2). rewrite E1. cbn [bind].
      apply IH; [exact H1|lia]. }
  destruct (L (Datatypes.S (mu s)) s Hs ltac:(lia)) as (s' & E & HQ).
  rewrite (dbl_correct halt step Hi _ _ _ _ E); [exact HQ|].
  now apply depth_dbl.
Qed.

(** ** Reading *)
Lemma nth_ok (l : list Z) i x : nth_error l i = Some x -> nth i l 0 = x.
Proof. revert i. induction l as [|y t IH]; intros [|i] H; cbn in *; try discriminate; [congruence|auto]. Qed.

Lemma ok_nth (l : list Z) i : (i < length l)%nat -> nth_error l i = Some (nth i l 0).
Proof. revert i. induction l as [|y t IH]; intros [|i] H; cbn in *; try lia; [reflexivity|apply IH; lia]. Qed.

Lemma nth_nz s i : ~ In 0 s -> (i < length s)%nat -> nth i s 0 <> 0.
Proof. intros H Hi E. apply H. rewrite <- E. now apply nth_In. Qed.

Lemma cstr_to_n m p s n : cstr m p s -> (length s < n)%nat -> cstr_n m p n s.
Proof. intros (H1 & H2 & H3) Hn. repeat split; auto; lia. Qed.

Lemma rd_n m p n s i : cstr_n m p n s -> (i < n)%nat -> (i <= length s)%nat -> rd m (p + i) = Ok (nth i s 0).
Proof.
  intros (H1 & H2 & H3 & H4) Hi Hl. unfold rd.
  destruct (Nat.eq_dec i (length s)) as [->|Hne].
  - rewrite H3 by lia. now rewrite nth_overflow.
  - rewrite (H1 i (nth i s 0)); [reflexivity|]. apply ok_nth. lia.
Qed.

Lemma rd_s m p s i : cstr m p s -> (i <= length s)%nat -> rd m (p + i) = Ok (nth i s 0).
Proof. intros H Hi. apply (rd_n m p (S (length s)) s); [now apply cstr_to_n; [|lia]|lia|lia]. Qed.

Lemma nul_n m p n s i : cstr_n m p n s -> (i < n)%nat -> (i <= length s)%nat ->
  nul m (p + i) = Ok (i =? length s)%nat.
Proof.
  intros H Hi Hl. unfold nul. rewrite (rd_n m p n s) by assumption. cbn [bind]. f_equal.
  destruct H as (_ & _ & _ & H4).
  destruct (Nat.eqb_spec i (length s)) as [->|Hne].
  - now rewrite nth_overflow.
  - apply Z.eqb_neq, nth_nz; [exact H4|lia].
Qed.

Lemma nul_s m p s i : cstr m p s -> (i <= length s)%nat -> nul m (p + i) = Ok (i =? length s)%nat.
Proof. intros H Hi. apply (nul_n m p (S (length s)) s); [now apply cstr_to_n; [|lia]|lia|lia]. Qed.

Lemma nth_s0 s i : (i <= length s)%nat -> nth_error (s ++ [0]) i = Some (nth i s 0).
Proof.
  intros H. destruct (Nat.eq_dec i (length s)) as [->|Hne].
  - rewrite nth_error_app2, Nat.sub_diag by lia. now rewrite nth_overflow.
  - rewrite nth_error_app1 by lia. apply ok_nth. lia.
Qed.

(** ** first_of from a scan *)
Lemma first_of_some (P : Z -> Prop) xs i : (i < length xs)%nat -> P (nth i xs 0) -> (forall j, (j < i)%nat -> ~ P (nth j xs 0)) ->
  first_of P xs (Some i).
Proof.
  intros H1 H2 H3. split.
  - exists (nth i xs 0). split; [now apply ok_nth|exact H2].
  - intros j x Hj E. apply nth_ok in E. rewrite <- E. now apply H3.
Qed.

Lemma first_of_none (P : Z -> Prop) xs : (forall j, (j < length xs)%nat -> ~ P (nth j xs 0)) -> first_of P xs None.
Proof.
  intros H x Hx. apply In_nth_error in Hx. destruct Hx as (j & Hj).
  rewrite <- (nth_ok _ _ _ Hj). apply H. apply nth_error_Some. congruence.
Qed.

Lemma nth_app0 s i : nth i (s ++ [0]) 0 = nth i s 0.
Proof.
  destruct (Nat.lt_ge_cases i (length s)) as [H|H].
  - now rewrite app_nth1.
  - rewrite app_nth2 by exact H. rewrite (nth_overflow s) by exact H.
    destruct (i - length s)%nat as [|[|k]]; reflexivity.
Qed.

(** ** strlen *)
Ltac plain_idem := let H := fresh in
  intros s s' H; repeat match type of s with (_ * _)%type => destruct s as [s ?] end;
  revert H.

Lemma strlen_lemma d m p s : cstr m p s -> (depth_bound (length s) <= d)%nat -> strlen d m p = Ok (length s).
Proof.
  intros H Hd. unfold strlen. apply wp_det. apply wp_bind.
  apply (dbl_rule _ _ (fun '(q, n) => q = (p + n)%nat /\ (n <= length s)%nat) (fun '(q, n) => (length s - n)%nat)
           (fun r => wp (Ok (snd r)) (fun b => b = length s))); [| |lia|now rewrite Nat.sub_0_r].
  - intros [q n] s'. destruct (nul m q) as [[]| |] eqn:E; cbn [bind]; try discriminate.
    intros [= <-]. now rewrite E.
  - intros [q n] (-> & Hn). rewrite (nul_s m p s) by assumption. cbn [bind].
    destruct (Nat.eqb_spec n (length s)) as [E|E].
    + left. eexists. split; [reflexivity|]. exact E.
    + right. split; [reflexivity|]. cbn. lia.
Qed.

(** ** The random access search stops at the first hit *)
Lemma ra_search_upto (test : nat -> nat -> res bool) (P : nat -> bool) h d : forall first last,
  (first < last)%nat -> (first <= h)%nat ->
  (forall i, (first <= i < last)%nat -> (i <= h)%nat -> test i (S i) = Ok (P i)) ->
  (forall i, (first <= i < last)%nat -> (i < h)%nat -> P i = false) -> ((h < last)%nat -> P h = true) ->
  (Nat.log2_up (last - first) < d)%nat ->
  ra_search d test first last ((last - first) / 2) first = Ok (Nat.min h last).
Proof.
  induction d as [|d IH]; intros first last Hl Hh Ht Hf Hp Hd; [lia|].
  cbn [ra_search]. rewrite Nat.eqb_refl. cbn [negb].
  destruct ((last - first) / 2 =? 0)%nat eqn:Ep.
  - apply Nat.eqb_eq in Ep.
    assert (last = S first) by (destruct (Nat.eq_dec last (S first)); [assumption|
      pose proof (Nat.div_le_lower_bound (last - first) 2 1); lia]). subst last.
    rewrite Ht by lia. cbn [bind]. f_equal.
    destruct (Nat.eq_dec h first) as [->|Hne].
    + rewrite Hp by lia. lia.
    + rewrite Hf by lia. lia.
  - apply Nat.eqb_neq in Ep.
    set (n := (last - first)%nat) in *.
    assert (Hn2 : (2 * (n / 2) <= n)%nat) by (apply Nat.mul_div_le; lia).
    assert (Hn : (2 <= n)%nat) by lia.
    assert (H1 := log2_half n Hn). assert (H2 := log2_half' n Hn).
    replace (n / 2 / 2)%nat with ((first + n / 2 - first) / 2)%nat by (f_equal; lia).
    rewrite (IH first (first + n / 2)%nat); cycle 1.
    { lia. } { lia. }
    { intros i Hi Hi'. apply Ht; lia. }
    { intros i Hi Hi'. apply Hf; lia. }
    { intros Hi. apply Hp; lia. }
    { replace (first + n / 2 - first)%nat with (n / 2)%nat by lia. lia. }
    cbn [bind].
    destruct (Nat.lt_ge_cases h (first + n / 2)) as [Hc|Hc].
    + rewrite Nat.min_l by lia. destruct d as [|d]; [lia|]. cbn [ra_search].
      replace (h =? first + n / 2)%nat with false by lia. cbn [negb]. f_equal. lia.
    + rewrite Nat.min_r by lia.
      replace ((n - n / 2) / 2)%nat with ((last - (first + n / 2)) / 2)%nat by (f_equal; lia).
      rewrite (IH (first + n / 2)%nat last); cycle 1.
      { lia. } { lia. }
      { intros i Hi Hi'. apply Ht; lia. }
      { intros i Hi Hi'. apply Hf; lia. }
      { intros Hi. apply Hp; lia. }
      { replace (last - (first + n / 2))%nat with (n - n / 2)%nat by lia. lia. }
      f_equal.
Qed.

Lemma find_upto d m p n v h : (h <= n)%nat ->
  (forall i, (i < n)%nat -> (i <= h)%nat -> exists x, nth_error m (p + i) = Some x /\ (x = v <-> i = h)) ->
  (depth_bound n <= d)%nat -> find Z.eqb true d m p (p + n) v = Ok (p + h)%nat.
Proof.
  intros Hh Hx Hd. unfold find. 
  destruct (Nat.eq_dec n 0) as [->|Hn].
  - unfold find_ra. replace (p + 0)%nat with p by lia. rewrite Nat.eqb_refl. f_equal. lia.
  - unfold find_ra. replace (p =? p + n)%nat with false by lia.
    rewrite (ra_search_upto _ (fun i => (i =? p + h)%nat) (p + h)); try lia; [f_equal; lia| | ].
    + intros i Hi Hi'. destruct (Hx (i - p)%nat) as (x & E & Ex); try lia.
      replace (p + (i - p))%nat with i in E by lia. unfold rd. rewrite E. cbn [bind]. f_equal.
      destruct (Z.eqb_spec x v) as [Hv|Hv]; [apply Ex in Hv; lia|].
      symmetry. apply Nat.eqb_neq. intros ->. apply Hv, Ex. lia.
    + replace (p + n - p)%nat with n by lia. now apply depth_ra.
Qed.

Lemma strlen_n_lemma d m p n s : cstr_n m p n s -> (depth_bound n <= d)%nat -> strlen_n d m p n = Ok (length s).
Proof.
  intros H Hd. unfold strlen_n.
  rewrite (find_upto d m p n 0 (length s)); [cbn [bind]; f_equal; lia|apply H| |exact Hd].
  intros i Hi Hl. pose proof (rd_n m p n s i H Hi Hl) as E. unfold rd in E.
  destruct (nth_error m (p + i)) as [x|]; [|discriminate]. injection E as ->.
  eexists. split; [reflexivity|]. destruct H as (_ & _ & _ & H4).
  destruct (Nat.eq_dec i (length s)) as [->|Hne].
  - rewrite nth_overflow by lia. easy.
  - split; [|lia]. intros E. exfalso. apply (nth_nz s i); [exact H4|lia|exact E].
Qed.

(** ** memchr *)
Lemma first_index (P : Z -> bool) xs : exists h, (h <= length xs)%nat /\
  (forall j, (j < h)%nat -> P (nth j xs 0) = false) /\ ((h < length xs)%nat -> P (nth h xs 0) = true).
Proof.
  induction xs as [|x t (h & H1 & H2 & H3)].
  - exists 0%nat. cbn. repeat split; lia.
  - destruct (P x) eqn:E.
    + exists 0%nat. cbn. repeat split; auto; lia.
    + exists (S h). cbn. repeat split; [lia| |intros; apply H3; lia].
      intros [|j] Hj; [exact E|]. apply H2. lia.
Qed.

Lemma memchr_lemma d m p c n bs :
  block m p bs -> (length bs <= n)%nat ->
  ((length bs < n)%nat -> In (uchar c) bs) -> (depth_bound n <= d)%nat ->
  exists r, memchr d m p c n = Ok (option_map (Nat.add p) r) /\ first_of (eq (uchar c)) bs r.
Proof.
  intros Hb Hn Hin Hd. unfold memchr.
  assert (Ec : conv u8 c = uchar c) by reflexivity. rewrite Ec.
  destruct (first_index (fun x => x =? uchar c) bs) as (h & H1 & H2 & H3).
  assert (Hh : (h < length bs \/ h = length bs /\ length bs = n)%nat).
  { destruct (Nat.lt_ge_cases h (length bs)) as [|Hge]; [now left|right].
    assert (h = length bs) by lia. subst h. split; [reflexivity|].
    destruct (Nat.lt_ge_cases (length bs) n) as [Hlt|]; [|lia].
    destruct (In_nth _ _ 0 (Hin Hlt)) as (j & Hj & E). specialize (H2 j Hj). rewrite E, Z.eqb_refl in H2. discriminate. }
  rewrite (find_upto d m p n (uchar c) h); [|lia| |exact Hd].
  - cbn [bind]. destruct Hh as [Hh|[-> Hh]].
    + exists (Some h). replace (p + h =? p + n)%nat with false by lia. split; [reflexivity|].
      apply first_of_some; [lia| |].
      * symmetry. apply Z.eqb_eq, H3, Hh.
      * intros j Hj E. specialize (H2 j Hj). rewrite <- E, Z.eqb_refl in H2. discriminate.
    + exists None. rewrite Hh, Nat.eqb_refl. split; [reflexivity|].
      apply first_of_none. intros j Hj E. specialize (H2 j Hj). rewrite <- E, Z.eqb_refl in H2. discriminate.
  - intros i Hi Hih.
    assert (Hl : (i < length bs)%nat) by lia.
    exists (nth i bs 0). split; [apply Hb, ok_nth, Hl|].
    destruct (Nat.eq_dec i h) as [->|Hne].
    + split; [easy|]. intros _. apply Z.eqb_eq, H3, Hl.
    + split; [|lia]. intros E. specialize (H2 i ltac:(lia)). rewrite E, Z.eqb_refl in H2. discriminate.
Qed.

(** ** strchr *)
Lemma strchr_detail_lemma d m p s v : cstr m p s -> (depth_bound (length s) <= d)%nat ->
  exists h, strchr_detail d m p v = Ok (p + h)%nat /\ (h <= length s)%nat /\
    (forall j, (j < h)%nat -> nth j s 0 <> v) /\ ((h < length s)%nat -> nth h s 0 = v).
Proof.
  intros H Hd.
  cut (wp (strchr_detail d m p v) (fun r => exists h, r = (p + h)%nat /\ (h <= length s)%nat /\
    (forall j, (j < h)%nat -> nth j s 0 <> v) /\ ((h < length s)%nat -> nth h s 0 = v))).
  { intros W. apply wp_out in W. destruct W as (r & E & h & -> & Hr). eauto. }
  unfold strchr_detail. apply wp_bind.
  apply (dbl_rule _ _ (fun '(q, f) => exists h, q = (p + h)%nat /\ (h <= length s)%nat /\
      (forall j, (j < h)%nat -> nth j s 0 <> v) /\ (f = true -> (h < length s)%nat /\ nth h s 0 = v))
    (fun '(q, f) => if f : bool then 0%nat else (length s - (q - p))%nat));
    [| | |].
  - intros [q []] s'; cbn [bind].
    + intros [= <-]. reflexivity.
    + destruct (nul m q) as [[]| |] eqn:E; cbn [bind]; try discriminate.
      intros [= <-]. now rewrite E.
  - intros [q f] (h & -> & Hh & Hj & Hf). destruct f.
    + left. eexists. split; [reflexivity|]. cbn. exists h. destruct (Hf eq_refl). auto.
    + rewrite (nul_s m p s) by assumption. cbn [bind].
      destruct (Nat.eqb_spec h (length s)) as [E|E].
      * left. eexists. split; [reflexivity|]. cbn. exists h. repeat split; auto. lia.
      * right. split; [reflexivity|]. rewrite (rd_s m p s) by assumption. cbn [bind].
        destruct (Z.eqb_spec (nth h s 0) v) as [Ev|Ev]; cbn [wp].
        -- split; [|lia]. exists h. repeat split; auto; lia.
        -- split; [|lia]. exists (S h). repeat split; try lia; try easy.
           intros j Hj'. destruct (Nat.eq_dec j h) as [->|]; [exact Ev|]. apply Hj. lia.
  - exists 0%nat. repeat split; try lia; easy.
  - now rewrite Nat.sub_diag, Nat.sub_0_r.
Qed.

Lemma strchr_lemma ct d m p s c : cstr m p s -> (depth_bound (length s) <= d)%nat ->
  exists r, strchr ct d m p c = Ok (option_map (Nat.add p) r) /\ first_of (eq (conv ct c)) (s ++ [0]) r.
Proof.
  intros H Hd. unfold strchr. set (v := conv ct c).
  destruct (strchr_detail_lemma d m p s v H Hd) as (h & -> & H1 & H2 & H3). cbn [bind].
  unfold str_find_check_value. rewrite (rd_s m p s) by assumption. cbn [bind].
  destruct (Nat.eq_dec h (length s)) as [->|Hne].
  - rewrite nth_overflow by lia. destruct (Z.eqb_spec 0 v) as [Ev|Ev]; cbn [negb andb Z.eqb].
    + exists (Some (length s)). split; [reflexivity|]. apply first_of_some.
      * rewrite app_length. cbn. lia.
      * now rewrite nth_app0, nth_overflow by lia.
      * intros j Hj E. rewrite nth_app0 in E. now apply (H2 j Hj).
    + exists None. split; [reflexivity|]. apply first_of_none. intros j Hj E.
      rewrite nth_app0 in E. rewrite app_length in Hj. cbn in Hj.
      destruct (Nat.eq_dec j (length s)) as [->|Hj'].
      * rewrite nth_overflow in E by lia. now apply Ev.
      * apply (H2 j); [lia|now rewrite E].
  - rewrite H3 by lia. rewrite Z.eqb_refl. cbn [negb andb].
    exists (Some h). split; [reflexivity|]. apply first_of_some.
    + rewrite app_length. lia.
    + rewrite nth_app0, H3; lia.
    + intros j Hj E. rewrite nth_app0 in E. now apply (H2 j Hj).
Qed.

(** ** strrchr *)
Lemma strrchr_lemma ct d m p s c : cstr m p s -> (depth_bound (length s) <= d)%nat ->
  exists r, strrchr ct d m p c = Ok (option_map (Nat.add p) r) /\ last_of (eq (conv ct c)) (s ++ [0]) r.
Proof.
  intros H Hd. unfold strrchr. set (v := conv ct c).
  cut (wp (strrchr_detail d m p v) (fun q => exists r, q = option_map (Nat.add p) r /\ last_of (eq v) (s ++ [0]) r)).
  { intros W. apply wp_out in W. destruct W as (r & E & h & -> & Hr). eauto. }
  unfold strrchr_detail. apply wp_bind.
  assert (Hlen : length (s ++ [0]) = S (length s)) by (rewrite app_length; cbn; lia).
  apply (dbl_rule _ _ (fun '(q, l) => exists h g, q = (p + h)%nat /\ l = (p + g)%nat /\ (h <= length s)%nat /\
      (g = 0%nat /\ (forall j, (j < h)%nat -> nth j s 0 <> v) \/
       (g < h)%nat /\ nth g s 0 = v /\ (forall j, (g < j < h)%nat -> nth j s 0 <> v)))
    (fun '(q, l) => (length s - (q - p))%nat)); [| | |].
  - intros [q l] s'. destruct (nul m q) as [[]| |] eqn:E; cbn [bind]; try discriminate.
    intros [= <-]. now rewrite E.
  - intros [q l] (h & g & -> & -> & Hh & HI).
    rewrite (nul_s m p s) by assumption. cbn [bind].
    destruct (Nat.eqb_spec h (length s)) as [E|E].
    + left. eexists. split; [reflexivity|]. unfold strrchr_impl_check. cbn [fst snd].
      rewrite (rd_s m p s) by (try assumption; lia). cbn [bind wp]. subst h.
      destruct HI as [(-> & HI)|(Hg & Hv & HI)].
      * destruct (Z.eqb_spec (nth 0 s 0) v) as [Ev|Ev].
        -- destruct s as [|x t].
           ++ exists (Some 0%nat). split; [reflexivity|]. split; [now exists 0|].
              intros j y Hj Ey. apply nth_error_lt in Ey. cbn in Ey. lia.
           ++ exfalso. apply (HI 0%nat); [cbn; lia|exact Ev].
        -- destruct (Z.eqb_spec v 0) as [E0|E0].
           ++ exists (Some (length s)). split; [reflexivity|]. split.
              ** exists 0. split; [|exact E0]. rewrite nth_s0 by lia. now rewrite nth_overflow.
              ** intros j y Hj Ey. apply nth_error_lt in Ey. lia.
           ++ exists None. split; [reflexivity|]. intros x Hx Ex. apply in_app_or in Hx.
              destruct Hx as [Hx|[Hx|[]]]; [|congruence].
              apply (In_nth _ _ 0) in Hx. destruct Hx as (j & Hj & Ej). apply (HI j Hj). congruence.
      * rewrite Hv, Z.eqb_refl. 
        exists (Some g). split; [reflexivity|]. split.
        -- exists v. split; [|reflexivity]. rewrite nth_s0 by lia. now rewrite Hv.
        -- intros j y Hj Ey Ey'. pose proof (nth_error_lt _ _ _ Ey) as Hl. rewrite Hlen in Hl.
           rewrite nth_s0 in Ey by lia. injection Ey as Ey.
           destruct (Nat.eq_dec j (length s)) as [->|Hne].
           ++ rewrite nth_overflow in Ey by lia. destruct H as (_ & _ & H0). apply H0.
              replace 0 with (nth g s 0) by congruence. apply nth_In. lia.
           ++ apply (HI j); [lia|congruence].
    + right. split; [reflexivity|]. rewrite (rd_s m p s) by assumption. cbn [bind].
      destruct (Z.eqb_spec (nth h s 0) v) as [Ev|Ev]; cbn [wp].
      * split; [|lia]. exists (S h), h. repeat split; try lia.
        right. repeat split; [lia|exact Ev|intros; lia].
      * split; [|lia]. exists (S h), g. repeat split; try lia.
        destruct HI as [(-> & HI)|(Hg & Hv & HI)]; [left|right].
        -- split; [reflexivity|]. intros j Hj. destruct (Nat.eq_dec j h) as [->|]; [exact Ev|apply HI; lia].
        -- repeat split; [lia|exact Hv|].
           intros j Hj. destruct (Nat.eq_dec j h) as [->|]; [exact Ev|apply HI; lia].
  - exists 0%nat, 0%nat. repeat split; try lia. left. split; [reflexivity|lia].
  - now rewrite Nat.sub_diag, Nat.sub_0_r.
Qed.
