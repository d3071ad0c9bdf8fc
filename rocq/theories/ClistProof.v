From Coq Require Import List Arith Bool Lia Permutation.
From Verif Require Import Base ClistModel ClistSpec.
Import ListNotations.

Lemma next_set_same : forall V (h : heap V) p n, next (set_next h p n p) = n.
Proof. intros. unfold set_next, set. rewrite Nat.eqb_refl. reflexivity. Qed.

Lemma next_set_other : forall V (h : heap V) p n q, q <> p -> next (set_next h p n q) = next (h q).
Proof. intros V h p n q H. unfold set_next, set. apply Nat.eqb_neq in H. rewrite H. reflexivity. Qed.

Lemma val_set : forall V (h : heap V) p n q, val (set_next h p n q) = val (h q).
Proof.
  intros. unfold set_next, set. destruct (q =? p) eqn:E; [apply Nat.eqb_eq in E; subst|]; reflexivity.
Qed.

(** Segments: the items of a are linked in this order, the last to p. *)
Fixpoint lseg {V} (h : heap V) (a : list loc) (p : loc) : Prop :=
  match a with
  | [] => True
  | y :: t => next (h y) = Some (hd p t) /\ lseg h t p
  end.

Lemma linked_app : forall V (h : heap V) a p b,
  linked h (a ++ p :: b) <-> lseg h a p /\ linked h (p :: b).
Proof.
  induction a as [|y a IH]; intros p b.
  - cbn [app lseg]. tauto.
  - cbn [app lseg]. change (linked h (y :: a ++ p :: b))
      with (next (h y) = hd_error (a ++ p :: b) /\ linked h (a ++ p :: b)).
    rewrite IH. destruct a; cbn [app hd_error hd]; tauto.
Qed.

Lemma linked_ext : forall V (h h' : heap V) ys,
  (forall p, In p ys -> next (h' p) = next (h p)) -> linked h ys -> linked h' ys.
Proof.
  induction ys as [|y t IH]; intros E L; [exact I|]. destruct L as [L1 L2]. split.
  - rewrite E; [exact L1 | left; reflexivity].
  - apply IH; [intros p H; apply E; right; exact H | exact L2].
Qed.

Lemma lseg_ext : forall V (h h' : heap V) p ys,
  (forall q, In q ys -> next (h' q) = next (h q)) -> lseg h ys p -> lseg h' ys p.
Proof.
  induction ys as [|y t IH]; intros E L; [exact I|]. destruct L as [L1 L2]. split.
  - rewrite E; [exact L1 | left; reflexivity].
  - apply IH; [intros q H; apply E; right; exact H | exact L2].
Qed.

Lemma linked_next : forall V (h : heap V) a p b, linked h (a ++ p :: b) -> next (h p) = hd_error b.
Proof. intros V h a p b L. apply linked_app in L. apply L. Qed.

(** ** What a call does to its own list and to everything else *)

(** From [ys] to [ys']: the result is linked, items that left are linked to nothing, items outside
    both are as they were, and no value changed. *)
Definition turns {V} (h h' : heap V) (ys ys' : list loc) : Prop :=
  linked h' ys'
  /\ (forall p, In p ys -> ~ In p ys' -> next (h' p) = None)
  /\ (forall p, ~ In p ys -> ~ In p ys' -> next (h' p) = next (h p))
  /\ (forall p, val (h' p) = val (h p)).

Lemma NoDup_mid : forall (a : list loc) p b, NoDup (a ++ p :: b) ->
  ~ In p a /\ ~ In p b /\ (forall q, In q a -> ~ In q b) /\ NoDup b.
Proof.
  intros a p b N. pose proof (NoDup_remove a b p N) as [N1 N2].
  repeat split.
  - intros H; apply N2, in_or_app; left; exact H.
  - intros H; apply N2, in_or_app; right; exact H.
  - clear N N2. induction a as [|x a IH]; intros q Ha Hb; [destruct Ha|].
    inversion N1 as [|? ? Hx N1']; subst. destruct Ha as [->|Ha].
    + apply Hx, in_or_app; right; exact Hb.
    + exact (IH N1' q Ha Hb).
  - clear N N2. induction a; [exact N1 | inversion N1; auto].
Qed.

Lemma ins_mid : forall p x a b, ~ In p a -> ins p x (a ++ p :: b) = a ++ p :: x :: b.
Proof.
  induction a as [|y a IH]; intros b H; cbn [app ins].
  - rewrite Nat.eqb_refl. reflexivity.
  - destruct (Nat.eqb_spec y p) as [->|]; [destruct H; left; reflexivity|].
    rewrite IH; [reflexivity | intros K; apply H; right; exact K].
Qed.

Lemma era_mid : forall p a b, ~ In p a -> era p (a ++ p :: b) = a ++ p :: tl b.
Proof.
  induction a as [|y a IH]; intros b H; cbn [app era].
  - rewrite Nat.eqb_refl. reflexivity.
  - destruct (Nat.eqb_spec y p) as [->|]; [destruct H; left; reflexivity|].
    rewrite IH; [reflexivity | intros K; apply H; right; exact K].
Qed.

Lemma era_to_mid : forall p q a b, ~ In p a -> era_to p q (a ++ p :: b) = a ++ p :: from q b.
Proof.
  induction a as [|y a IH]; intros b H; cbn [app era_to].
  - rewrite Nat.eqb_refl. reflexivity.
  - destruct (Nat.eqb_spec y p) as [->|]; [destruct H; left; reflexivity|].
    rewrite IH; [reflexivity | intros K; apply H; right; exact K].
Qed.

Lemma rem_mid : forall x a b, ~ In x a -> rem x (a ++ x :: b) = a ++ b.
Proof.
  induction a as [|y a IH]; intros b H; cbn [app rem].
  - rewrite Nat.eqb_refl. reflexivity.
  - destruct (Nat.eqb_spec y x) as [->|]; [destruct H; left; reflexivity|].
    rewrite IH; [reflexivity | intros K; apply H; right; exact K].
Qed.

Lemma rem_out : forall x ys, ~ In x ys -> rem x ys = ys.
Proof.
  induction ys as [|y t IH]; intros H; cbn [rem]; [reflexivity|].
  destruct (Nat.eqb_spec y x) as [->|]; [destruct H; left; reflexivity|].
  rewrite IH; [reflexivity | intros K; apply H; right; exact K].
Qed.

Ltac nx := repeat (rewrite next_set_same || (rewrite next_set_other by (assumption || congruence))).

Lemma neq_in : forall (p q : loc) ys, In p ys -> ~ In q ys -> p <> q.
Proof. intros p q ys H K ->. exact (K H). Qed.

Lemma insert_turns : forall V (h : heap V) a p b x,
  linked h (a ++ p :: b) -> NoDup (a ++ p :: b) -> ~ In x (a ++ p :: b) ->
  turns h (set_next (set_next h x (next (h p))) p (Some x)) (a ++ p :: b) (a ++ p :: x :: b).
Proof.
  intros V h a p b x L N X. destruct (NoDup_mid _ _ _ N) as (Na & Nb & Nab & _).
  assert (Xp : x <> p) by (intros ->; apply X, in_or_app; right; left; reflexivity).
  assert (Xa : ~ In x a) by (intros K; apply X, in_or_app; left; exact K).
  assert (Xb : ~ In x b) by (intros K; apply X, in_or_app; right; right; exact K).
  pose proof (proj1 (linked_app _ _ _ _ _) L) as [La [Lp Lb]].
  assert (F : forall q, q <> x -> q <> p ->
    next (set_next (set_next h x (next (h p))) p (Some x) q) = next (h q)) by (intros; nx; reflexivity).
  unfold turns; repeat match goal with |- _ /\ _ => split end; [ | | |intros q; rewrite !val_set; reflexivity].
  - apply linked_app. split.
    + apply lseg_ext with (2 := La). intros q Hq. apply F; [exact (neq_in _ _ _ Hq Xa) | exact (neq_in _ _ _ Hq Na)].
    + split; [nx; reflexivity|]. split; [nx; exact Lp|].
      apply linked_ext with (2 := Lb). intros q Hq. apply F; [exact (neq_in _ _ _ Hq Xb) | exact (neq_in _ _ _ Hq Nb)].
  - intros q H K. exfalso. apply K. apply in_app_or in H. apply in_or_app. destruct H as [H|[H|H]]; [left|right; left|right; right; right]; assumption.
  - intros q H K. apply F; intros ->; apply K, in_or_app; right; [right; left | left]; reflexivity.
Qed.

Lemma erase_turns : forall V (h : heap V) a p f b,
  linked h (a ++ p :: f :: b) -> NoDup (a ++ p :: f :: b) ->
  turns h (unlink_item (set_next h p (next (h f))) f) (a ++ p :: f :: b) (a ++ p :: b).
Proof.
  intros V h a p f b L N. destruct (NoDup_mid _ _ _ N) as (Na & Nb & Nab & N2).
  inversion N2 as [|? ? Nf N3]; subst.
  assert (Pf : p <> f) by (intros ->; apply Nb; left; reflexivity).
  assert (Fa : ~ In f a) by (intros K; exact (Nab _ K (or_introl eq_refl))).
  pose proof (proj1 (linked_app _ _ _ _ _) L) as [La [Lp [Lf Lb]]].
  unfold unlink_item.
  assert (F : forall q, q <> f -> q <> p ->
    next (set_next (set_next h p (next (h f))) f None q) = next (h q)) by (intros; nx; reflexivity).
  unfold turns; repeat match goal with |- _ /\ _ => split end; [ | | |intros q; rewrite !val_set; reflexivity].
  - apply linked_app. split.
    + apply lseg_ext with (2 := La). intros q Hq. apply F; [exact (neq_in _ _ _ Hq Fa) | exact (neq_in _ _ _ Hq Na)].
    + split; [nx; exact Lf|].
      apply linked_ext with (2 := Lb). intros q Hq. apply F; [exact (neq_in _ _ _ Hq Nf)|].
      intros ->. apply Nb. right; exact Hq.
  - intros q H K. assert (q = f) as ->; [|nx; reflexivity].
    apply in_app_or in H. destruct H as [H|[H|[H|H]]]; [| |congruence|]; exfalso; apply K, in_or_app; [left|right; left|right; right]; assumption.
  - intros q H K. apply F; intros ->; apply H, in_or_app; right; [right; left | left]; reflexivity.
Qed.

(** clear *)
Lemma unlink_all_spec : forall V k (h : heap V) l xs, linked h (l :: xs) -> NoDup (l :: xs) ->
  length xs < k ->
  exists h', unlink_all k h l = Ok h' /\ (forall p, In p (l :: xs) -> next (h' p) = None)
    /\ (forall p, ~ In p (l :: xs) -> next (h' p) = next (h p))
    /\ (forall p, val (h' p) = val (h p)).
Proof.
  induction k as [|k IH]; intros h l xs L N K; [lia|]. cbn [unlink_all]. destruct L as [L1 L2]. rewrite L1.
  destruct xs as [|x xs]; cbn [hd_error].
  - exists h. split; [reflexivity|]. split; [|split; reflexivity].
    intros p [<-|[]]. exact L1.
  - inversion N as [|? ? Nl N']; subst. cbn [length] in K.
    destruct (IH h x xs L2 N' ltac:(lia)) as (h1 & E & A & B & C). rewrite E. cbn [bind].
    exists (set_next h1 l None). split; [reflexivity|]. split; [|split].
    + intros p [<-|H]; [nx; reflexivity|]. rewrite next_set_other by exact (neq_in _ _ _ H Nl). exact (A p H).
    + intros p H. rewrite next_set_other by (intros ->; apply H; left; reflexivity).
      apply B. intros K'; apply H; right; exact K'.
    + intros p. rewrite val_set. apply C.
Qed.

(** the loop of erase_after *)
Lemma from_app : forall q a b, ~ In q a -> hd_error b = Some q -> from (Some q) (a ++ b) = b.
Proof.
  induction a as [|y a IH]; intros b N H.
  - cbn [app]. destruct b as [|z b]; [discriminate|]. injection H as ->. cbn [from it_eq].
    rewrite Nat.eqb_refl. reflexivity.
  - cbn [app from it_eq]. destruct (Nat.eqb_spec y q) as [->|]; [destruct N; left; reflexivity|].
    apply IH; [intros K; apply N; right; exact K | exact H].
Qed.

Lemma from_none : forall ys, from None ys = [].
Proof. induction ys; [reflexivity | exact IHys]. Qed.

Lemma it_eq_spec : forall i j, it_eq i j = true <-> i = j.
Proof.
  intros [p|] [q|]; cbn [it_eq]; try (split; [discriminate|congruence]); [|tauto].
  rewrite Nat.eqb_eq. split; congruence.
Qed.

Lemma it_eq_refl : forall i, it_eq i i = true.
Proof. intros i. apply it_eq_spec. reflexivity. Qed.

Lemma it_eq_neq : forall i j, i <> j -> it_eq i j = false.
Proof. intros i j H. destruct (it_eq i j) eqn:E; [apply it_eq_spec in E; contradiction | reflexivity]. Qed.

(** the items a, linked from first up to last, are unlinked *)
Lemma erase_loop_spec : forall V (last : ptr) a k (h : heap V) (b : list loc),
  hd_error b = last -> linked h (a ++ b) -> NoDup (a ++ b) -> length a < k ->
  exists h', erase_loop k h (hd_error (a ++ b)) last = Ok h' /\ (forall p, In p a -> next (h' p) = None)
    /\ (forall p, ~ In p a -> next (h' p) = next (h p))
    /\ (forall p, val (h' p) = val (h p)).
Proof.
  induction a as [|y a IH]; intros k h b E L N K; (destruct k as [|k]; [cbn [length] in K; lia|]); cbn [erase_loop].
  - cbn [app]. rewrite E, it_eq_refl. exists h. split; [reflexivity|]. split; [intros p []|split; reflexivity].
  - cbn [app hd_error]. inversion N as [|? ? Ny N']; subst y0 || subst.
    rewrite it_eq_neq; [|intros H; apply Ny, in_or_app; right; destruct b as [|z b]; cbn [hd_error] in *; [congruence|left; congruence]].
    destruct L as [L1 L2]. cbn [it_next deref bind]. fold (app a b) in L1. rewrite L1.
    cbn [length] in K. unfold unlink_item.
    destruct (IH k (set_next h y None) b eq_refl) as (h1 & F & A & B & C);
      [apply linked_ext with (2 := L2); intros p Hp; apply next_set_other, (neq_in _ _ _ Hp Ny) | exact N' | lia |].
    exists h1. split; [exact F|]. split; [|split].
    + intros p [<-|H]; [|exact (A p H)]. rewrite B by (intros H; apply Ny, in_or_app; left; exact H). nx. reflexivity.
    + intros p H. rewrite B by (intros H'; apply H; right; exact H').
      apply next_set_other. intros ->. apply H; left; reflexivity.
    + intros p. rewrite C. apply val_set.
Qed.

Lemma NoDup_app_r : forall (a b : list loc), NoDup (a ++ b) -> NoDup b.
Proof. induction a; intros b N; [exact N | inversion N; auto]. Qed.

Lemma NoDup_disj : forall (a b : list loc), NoDup (a ++ b) -> forall q, In q a -> In q b -> False.
Proof.
  induction a as [|x a IH]; intros b N q Ha Hb; [destruct Ha|].
  inversion N as [|? ? Hx N1']; subst. destruct Ha as [->|Ha].
  + apply Hx, in_or_app; right; exact Hb.
  + exact (IH _ N1' q Ha Hb).
Qed.

(** the positions behind p split at last *)
Lemma split_last : forall (q : ptr) b, NoDup b -> match q with Some q => In q b | None => True end ->
  exists m c, b = m ++ c /\ hd_error c = q /\ from q b = c.
Proof.
  intros [q|] b N H.
  - destruct (in_split _ _ H) as (m & c & ->). exists m, (q :: c). split; [reflexivity|]. split; [reflexivity|].
    apply from_app; [|reflexivity]. apply (NoDup_mid _ _ _ N).
  - exists b, []. rewrite app_nil_r. split; [reflexivity|]. split; [reflexivity|apply from_none].
Qed.

Lemma erase_range_turns : forall V k (h : heap V) a p m c,
  linked h (a ++ p :: m ++ c) -> NoDup (a ++ p :: m ++ c) -> length m < k ->
  exists h', erase_after_range k h (Some p) (hd_error c) = Ok (h', hd_error c)
    /\ turns h h' (a ++ p :: m ++ c) (a ++ p :: c).
Proof.
  intros V k h a p m c L N K. destruct (NoDup_mid _ _ _ N) as (Na & Nb & Nab & N2).
  pose proof (proj1 (linked_app _ _ _ _ _) L) as [La [Lp Lb]].
  unfold erase_after_range. cbn [deref bind]. rewrite Lp.
  assert (Lb1 : linked (set_next h p (hd_error c)) (m ++ c)).
  { apply linked_ext with (2 := Lb). intros q Hq. apply next_set_other, (neq_in _ _ _ Hq Nb). }
  destruct (erase_loop_spec V (hd_error c) m k _ c eq_refl Lb1 N2 K) as (h1 & E & A & B & C).
  rewrite E. cbn [bind]. exists h1. split; [reflexivity|].
  assert (Pm : ~ In p m) by (intros H; apply Nb, in_or_app; left; exact H).
  unfold turns; repeat match goal with |- _ /\ _ => split end.
  - apply linked_app. split; [|split].
    + apply lseg_ext with (2 := La). intros q Hq. rewrite B by (intros H; apply (Nab q Hq), in_or_app; left; exact H).
      apply next_set_other, (neq_in _ _ _ Hq Na).
    + rewrite B by exact Pm. apply next_set_same.
    + assert (Lc : linked h c).
      { clear -Lb. induction m as [|y m IH]; [exact Lb|]. apply IH, Lb. }
      apply linked_ext with (2 := Lc). intros q Hq.
      rewrite B by (intros H; exact (NoDup_disj _ _ N2 q H Hq)).
      apply next_set_other. intros ->. apply Nb, in_or_app; right; exact Hq.
  - intros q H K'. apply A. apply in_app_or in H. destruct H as [H|[H|H]].
    + destruct K'. apply in_or_app; left; exact H.
    + destruct K'. apply in_or_app; right; left; exact H.
    + apply in_app_or in H. destruct H as [H|H]; [exact H|]. destruct K'. apply in_or_app; right; right; exact H.
  - intros q H K'. rewrite B by (intros H'; apply H, in_or_app; right; right; apply in_or_app; left; exact H').
    apply next_set_other. intros ->. apply H, in_or_app; right; left; reflexivity.
  - intros q. rewrite C. apply val_set.
Qed.

(** unlink: searching from the item f of the list *)
Lemma unlink_loop_miss : forall V x b k (h : heap V) f, linked h (f :: b) -> ~ In x b -> length b + 1 < k ->
  unlink_loop k h (Some f) x = Ok h.
Proof.
  induction b as [|y b IH]; intros k h f L X K; (destruct k as [|k]; [lia|]); destruct L as [L1 L2];
    cbn [unlink_loop it_eq end_ it_next deref bind]; rewrite L1; cbn [hd_error it_eq].
  - destruct k as [|k]; [cbn [length] in K; lia|]. reflexivity.
  - destruct (Nat.eqb_spec y x) as [->|]; [destruct X; left; reflexivity|].
    apply IH; [exact L2 | intros H; apply X; right; exact H | cbn [length] in K; lia].
Qed.

Lemma unlink_loop_hit : forall V x a k (h : heap V) f b, linked h (f :: a ++ x :: b) -> ~ In x a ->
  length a < k ->
  unlink_loop k h (Some f) x
  = Ok (unlink_item (set_next h (last a f) (next (h x))) x).
Proof.
  induction a as [|y a IH]; intros k h f b L X K; (destruct k as [|k]; [lia|]); destruct L as [L1 L2];
    cbn [unlink_loop it_eq end_ it_next deref bind]; rewrite L1; cbn [hd_error app it_eq].
  - rewrite Nat.eqb_refl. reflexivity.
  - destruct (Nat.eqb_spec y x) as [->|]; [destruct X; left; reflexivity|].
    rewrite (IH k h y b L2); [|intros H; apply X; right; exact H | cbn [length] in K; lia].
    f_equal. f_equal. f_equal. clear. revert y f. induction a as [|z a IH]; intros y f; [reflexivity|].
    change (last (z :: a) y = last (z :: a) f). destruct a; [reflexivity|]. apply (IH z z) || apply (IH y f).
Qed.

Lemma split_end : forall (l : loc) a, exists a', l :: a = a' ++ [last a l].
Proof.
  intros l a. revert l. induction a as [|y a IH]; intros l; [exists []; reflexivity|].
  destruct (IH y) as [a' E]. exists (l :: a'). rewrite E. cbn [app]. rewrite last_last. reflexivity.
Qed.

Lemma unlink_turns : forall V k (h : heap V) l xs x,
  linked h (l :: xs) -> NoDup (l :: xs) -> x <> l -> length xs + 1 < k ->
  exists h', unlink k h l x = Ok h' /\ turns h h' (l :: xs) (rem x (l :: xs)).
Proof.
  intros V k h l xs x L N X K. unfold unlink, before_begin. destruct (in_dec Nat.eq_dec x xs) as [H|H].
  - destruct (in_split _ _ H) as (a & b & ->).
    assert (Xa : ~ In x a) by (inversion N as [|? ? N1 N2]; apply (NoDup_mid _ _ _ N2)).
    rewrite (unlink_loop_hit V x a k h l b L Xa) by (rewrite app_length in K; cbn [length] in K; unfold loc in *; lia).
    eexists. split; [reflexivity|].
    destruct (split_end l a) as [a' E]. 
    assert (E1 : l :: a ++ x :: b = a' ++ last a l :: x :: b).
    { change (l :: a ++ x :: b) with ((l :: a) ++ x :: b). rewrite E, <- app_assoc. reflexivity. }
    assert (E2 : rem x (l :: a ++ x :: b) = a' ++ last a l :: b).
    { change (l :: a ++ x :: b) with ((l :: a) ++ x :: b). rewrite rem_mid.
      - rewrite E, <- app_assoc. reflexivity.
      - intros [J|J]; [congruence | exact (Xa J)]. }
    unfold loc in *. rewrite E2, E1. rewrite E1 in L, N. apply erase_turns; assumption.
  - rewrite unlink_loop_miss with (b := xs) by assumption. exists h. split; [reflexivity|].
    rewrite rem_out by (intros [J|J]; [congruence | exact (H J)]).
    unfold turns; repeat match goal with |- _ /\ _ => split end; [exact L | intros p J J2; contradiction | reflexivity | reflexivity].
Qed.

(** ** All the lists *)

Lemma NoDup_app_intro : forall (a b : list loc), NoDup a -> NoDup b ->
  (forall q, In q a -> In q b -> False) -> NoDup (a ++ b).
Proof.
  induction a as [|x a IH]; intros b Na Nb D; [exact Nb|]. inversion Na as [|? ? Nx Na']; subst.
  cbn [app]. constructor.
  - intros H. apply in_app_or in H. destruct H as [H|H]; [exact (Nx H)|]. exact (D x (or_introl eq_refl) H).
  - apply IH; [exact Na'|exact Nb|]. intros q H K. exact (D q (or_intror H) K).
Qed.

Lemma concat_mid : forall (A : list (list loc)) ys B,
  Permutation (concat (A ++ ys :: B)) (ys ++ concat (A ++ B)).
Proof.
  intros A ys B. rewrite !concat_app. cbn [concat]. rewrite !app_assoc. apply Permutation_app_tail, Permutation_app_comm.
Qed.

Lemma in_mid : forall (A : list (list loc)) ys B p,
  In p (concat (A ++ ys :: B)) <-> In p ys \/ In p (concat (A ++ B)).
Proof.
  intros A ys B p. rewrite <- in_app_iff. split; apply Permutation_in;
    [|apply Permutation_sym]; apply concat_mid.
Qed.

Lemma turns_holds : forall V (h h' : heap V) A ys ys' B,
  holds h (A ++ ys :: B) -> turns h h' ys ys' -> ys' <> [] -> NoDup ys' ->
  (forall p, In p ys' -> In p ys \/ ~ In p (concat (A ++ ys :: B))) ->
  holds h' (A ++ ys' :: B) /\ forall p, val (h' p) = val (h p).
Proof.
  intros V h h' A ys ys' B (L & N & E & O) (T1 & T2 & T3 & T4) E' N' I. split; [|exact T4].
  assert (D : forall q, In q ys' -> In q (concat (A ++ B)) -> False).
  { intros q Hq K. destruct (I q Hq) as [J|J].
    - pose proof (Permutation_NoDup (concat_mid A ys B) N) as N2. exact (NoDup_disj _ _ N2 q J K).
    - apply J, in_mid. right; exact K. }
  pose proof (Permutation_NoDup (concat_mid A ys B) N) as N2.
  assert (G : forall zs, In zs (A ++ B) -> linked h' zs).
  { intros zs Hz. assert (Lz : linked h zs).
    { apply (proj1 (Forall_forall _ _) L). apply in_app_or in Hz. apply in_or_app.
      destruct Hz; [left|right; right]; assumption. }
    apply linked_ext with (2 := Lz). intros p Hp.
    assert (J : In p (concat (A ++ B))) by (apply in_concat; exists zs; split; assumption).
    apply T3; [|intros K; exact (D p K J)]. intros K. exact (NoDup_disj _ _ N2 p K J). }
  unfold holds; repeat match goal with |- _ /\ _ => split end.
  - apply Forall_forall. intros zs Hz. apply in_app_or in Hz. destruct Hz as [Hz|[<-|Hz]];
      [apply G, in_or_app; left; exact Hz | exact T1 | apply G, in_or_app; right; exact Hz].
  - apply (Permutation_NoDup (Permutation_sym (concat_mid A ys' B))). apply NoDup_app_intro;
      [exact N' | exact (NoDup_app_r _ _ N2) | exact D].
  - apply Forall_forall. intros zs Hz. rewrite Forall_forall in E. apply in_app_or in Hz.
    destruct Hz as [Hz|[<-|Hz]]; [|exact E'|]; apply E, in_or_app; [left|right; right]; exact Hz.
  - intros p Hp. rewrite in_mid in Hp. destruct (in_dec Nat.eq_dec p ys) as [J|J].
    + apply T2; [exact J | intros K; apply Hp; left; exact K].
    + rewrite T3; [|exact J | intros K; apply Hp; left; exact K].
      apply O. rewrite in_mid. intros [K|K]; [exact (J K) | apply Hp; right; exact K].
Qed.

Lemma in_ins : forall (a b : list loc) p x q, In q (a ++ p :: x :: b) -> In q (a ++ p :: b) \/ q = x.
Proof.
  intros a b p x q H. apply in_app_or in H. destruct H as [H|[H|[H|H]]]; [left|left|right; congruence|left];
    apply in_or_app; [left|right; left|right; right]; assumption.
Qed.

Lemma NoDup_ins : forall (a b : list loc) p x, NoDup (a ++ p :: b) -> ~ In x (a ++ p :: b) -> NoDup (a ++ p :: x :: b).
Proof.
  intros a b p x N H. change (p :: x :: b) with ([p] ++ x :: b). rewrite app_assoc. 
  apply (Permutation_NoDup (l := x :: a ++ p :: b)).
  - change (p :: b) with ([p] ++ b). rewrite app_assoc. apply Permutation_middle.
  - constructor; assumption.
Qed.

Lemma NoDup_sub : forall (a m c : list loc), NoDup (a ++ m ++ c) -> NoDup (a ++ c).
Proof.
  intros a m c N. apply NoDup_app_intro.
  - clear -N. induction a as [|x a IH]; [constructor|]. cbn [app] in N. inversion N; subst.
    constructor; [intros K; apply H1, in_or_app; left; exact K | apply IH; assumption].
  - exact (NoDup_app_r _ _ (NoDup_app_r _ _ N)).
  - intros q H K. apply (NoDup_disj _ _ N q H). apply in_or_app; right; exact K.
Qed.

Lemma mid_length : forall (A : list (list loc)) ys B, length ys <= length (concat (A ++ ys :: B)).
Proof.
  intros A ys B. rewrite (Permutation_length (concat_mid A ys B)), app_length. lia.
Qed.

Theorem step_holds : forall V k (h : heap V) A ys B c,
  holds h (A ++ ys :: B) -> allowed c ys (concat (A ++ ys :: B)) -> length ys < k ->
  exists h', run k h c = Ok h' /\ holds h' (A ++ effect c ys :: B) /\ forall p, val (h' p) = val (h p).
Proof.
  intros V k h A ys B c HO AL K.
  assert (L : linked h ys).
  { destruct HO as (L & _). apply (proj1 (Forall_forall _ _) L), in_or_app. right; left; reflexivity. }
  assert (N : NoDup ys).
  { destruct HO as (_ & N & _). pose proof (Permutation_NoDup (concat_mid A ys B) N) as N2.
    rewrite <- (app_nil_l (ys ++ _)) in N2. clear -N2. cbn [app] in N2.
    induction ys as [|y ys IH]; [constructor|]. inversion N2; subst. constructor;
      [intros J; apply H1, in_or_app; left; exact J | apply IH; assumption]. }
  assert (INS : forall a p b x, ys = a ++ p :: b -> ~ In x (concat (A ++ ys :: B)) ->
    let h' := set_next (set_next h x (next (h p))) p (Some x) in
    holds h' (A ++ ins p x ys :: B) /\ forall q, val (h' q) = val (h q)).
  { intros a p b x E X h'. assert (X' : ~ In x ys) by (intros J; apply X, in_mid; left; exact J).
    apply turns_holds with (ys := ys); [exact HO | | | |].
    - subst ys. rewrite ins_mid by apply (NoDup_mid _ _ _ N). apply insert_turns; assumption.
    - subst ys. rewrite ins_mid by apply (NoDup_mid _ _ _ N). destruct a; discriminate.
    - subst ys. rewrite ins_mid by apply (NoDup_mid _ _ _ N). apply NoDup_ins; assumption.
    - intros q Hq. rewrite E in Hq. rewrite ins_mid in Hq by (subst ys; apply (NoDup_mid _ _ _ N)).
      destruct (in_ins _ _ _ _ _ Hq) as [J| ->]; [left; rewrite E; exact J | right; exact X]. }
  assert (ERA : forall a p f b, ys = a ++ p :: f :: b ->
    let h' := unlink_item (set_next h p (next (h f))) f in
    holds h' (A ++ era p ys :: B) /\ forall q, val (h' q) = val (h q)).
  { intros a p f b E h'. apply turns_holds with (ys := ys); [exact HO | | | |]; subst ys;
      rewrite era_mid by apply (NoDup_mid _ _ _ N); cbn [tl].
    - apply erase_turns; assumption.
    - destruct a; discriminate.
    - change (p :: b) with ([p] ++ b). rewrite app_assoc. apply NoDup_sub with (m := [f]).
      rewrite <- app_assoc. exact N.
    - intros q Hq. left. apply in_app_or in Hq. apply in_or_app. destruct Hq as [J|[J|J]];
        [left|right; left|right; right; right]; exact J. }
  destruct c as [l x|l|l p x|l p|l p q|l|l x]; cbn [allowed effect run] in *.
  - destruct AL as [Hd X]. destruct ys as [|y t]; [discriminate|]. injection Hd as ->.
    eexists. split; [reflexivity|]. exact (INS [] l t x eq_refl X).
  - destruct AL as [Hd T]. destruct ys as [|y [|f t]]; [discriminate|destruct T; reflexivity|]. injection Hd as ->.
    unfold pop_front. destruct L as [L1 L2]. rewrite L1. cbn [hd_error deref bind].
    eexists. split; [reflexivity|]. exact (ERA [] l f t eq_refl).
  - destruct AL as (Hd & P & X). destruct (in_split _ _ P) as (a & b & E).
    unfold insert_after. cbn [deref bind]. eexists. split; [reflexivity|]. exact (INS a p b x E X).
  - destruct AL as (Hd & a & f & b & E). unfold erase_after. cbn [deref bind].
    assert (Np : next (h p) = Some f) by (rewrite E in L; exact (linked_next _ _ _ _ _ L)).
    rewrite Np. cbn [deref bind]. eexists. split; [reflexivity|]. exact (ERA a p f b E).
  - destruct AL as (Hd & a & b & E & Q). subst ys. destruct (NoDup_mid _ _ _ N) as (Na & _ & _ & Nb).
    destruct (split_last q b Nb Q) as (m & c & -> & Hc & F). 
    destruct (erase_range_turns V k h a p m c L N) as (h1 & R & T).
    { rewrite app_length in K. cbn [length] in K. rewrite app_length in K. unfold loc in *. lia. }
    rewrite Hc in R. rewrite R. cbn [bind]. exists h1. split; [reflexivity|].
    rewrite era_to_mid by exact Na. rewrite F.
    apply turns_holds with (ys := a ++ p :: m ++ c); [exact HO | exact T | destruct a; discriminate | |].
    + change (p :: c) with ([p] ++ c). rewrite app_assoc. apply NoDup_sub with (m := m).
      rewrite <- app_assoc. exact N.
    + intros z Hz. left. apply in_app_or in Hz. apply in_or_app. destruct Hz as [J|[J|J]];
        [left; exact J|right; left; exact J|right; right; apply in_or_app; right; exact J].
  - destruct ys as [|y t]; [discriminate|]. injection AL as ->.
    destruct (unlink_all_spec V k h l t L N) as (h1 & R & U1 & U2 & U3); [cbn [length] in K; unfold loc in *; lia|].
    exists h1. split; [exact R|].
    apply turns_holds with (ys := l :: t); [exact HO | | discriminate | repeat constructor; intros [] |].
    + unfold turns; repeat match goal with |- _ /\ _ => split end; [| | |exact U3].
      * split; [apply U1; left; reflexivity | exact I].
      * intros p H _. exact (U1 p H).
      * intros p H _. exact (U2 p H).
    + intros p [<-|[]]. left; left; reflexivity.
  - destruct AL as [Hd X]. destruct ys as [|y t]; [discriminate|]. injection Hd as ->.
    destruct (unlink_turns V k h l t x L N X) as (h1 & R & T); [cbn [length] in K; unfold loc in *; lia|].
    exists h1. split; [exact R|].
    apply turns_holds with (ys := l :: t); [exact HO | exact T | | |].
    + cbn [rem]. apply not_eq_sym, Nat.eqb_neq in X. rewrite X. discriminate.
    + destruct (in_dec Nat.eq_dec x (l :: t)) as [J|J].
      * destruct (in_split _ _ J) as (a & b & E). unfold loc in *. rewrite E in *. rewrite rem_mid by apply (NoDup_mid _ _ _ N).
        apply NoDup_remove_1 in N. exact N.
      * rewrite rem_out by exact J. exact N.
    + intros p Hp. left. destruct (in_dec Nat.eq_dec x (l :: t)) as [J|J].
      * destruct (in_split _ _ J) as (a & b & E). unfold loc in *. rewrite E in *. rewrite rem_mid in Hp by apply (NoDup_mid _ _ _ N).
        apply in_app_or in Hp. apply in_or_app. destruct Hp; [left|right; right]; assumption.
      * rewrite rem_out in Hp by exact J. exact Hp.
Qed.
