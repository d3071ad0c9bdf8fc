(** Properties of tribool, optional and variant. *)
From Coq Require Import List Arith Bool.
From Verif Require Import Base OrderSpec OptModel OptSpec OptProof.
Import ListNotations.

(** ** C158 *)
Theorem tri_overloads : forall x b,
  tri_and_bool x b = tri_and x (tri_of b) /\ bool_and_tri b x = tri_and (tri_of b) x /\
  ind_and_tri x = tri_and Indeterminate_value x /\ tri_and_ind x = tri_and x Indeterminate_value /\
  tri_or_bool x b = tri_or x (tri_of b) /\ bool_or_tri b x = tri_or (tri_of b) x /\
  ind_or_tri x = tri_or Indeterminate_value x /\ tri_or_ind x = tri_or x Indeterminate_value /\
  tri_eq_bool x b = tri_eq x (tri_of b) /\ bool_eq_tri b x = tri_eq (tri_of b) x /\
  ind_eq_tri x = tri_eq Indeterminate_value x /\ tri_eq_ind x = tri_eq x Indeterminate_value /\
  tri_neq_bool x b = tri_neq x (tri_of b) /\ bool_neq_tri b x = tri_neq (tri_of b) x /\
  ind_neq_tri x = tri_neq Indeterminate_value x /\ tri_neq_ind x = tri_neq x Indeterminate_value.
Proof. exact @tri_overloads_lemma. Qed.
Print Assumptions tri_overloads.

Theorem teval_sound : forall rho env, (forall n, means (rho n) (env n)) -> forall e b, possible env e b -> means (teval rho e) b.
Proof. exact @teval_sound_lemma. Qed.
Print Assumptions teval_sound.
Example teval_sound_ex :
  let rho n := match n with 0 => True_value | _ => Indeterminate_value end in
  teval rho (TOr (TVar 0) (TAnd (TVar 1) TInd)) = True_value /\
  teval rho (TAnd (TNot (TVar 0)) (TEq (TVar 1) (TBool true))) = False_value /\
  teval rho (TNeq (TVar 0) (TVar 1)) = Indeterminate_value /\
  possible (fun _ => true) (TOr (TVar 0) (TAnd (TVar 1) TInd)) true.
Proof. repeat split. exists true, false. repeat split. exists true, false. now repeat split. Qed.

Theorem teval_decides : forall rho env, (forall n, means (rho n) (env n)) -> forall e,
  (tri_true (teval rho e) = true -> forall b, possible env e b -> b = true) /\
  (tri_true (tri_not (teval rho e)) = true -> forall b, possible env e b -> b = false).
Proof. exact @teval_decides_lemma. Qed.
Print Assumptions teval_decides.

Theorem tri_ops_exact : forall x y c,
  (means (tri_not x) c -> means x (negb c)) /\
  (means (tri_and x y) c -> exists a b, means x a /\ means y b /\ c = a && b) /\
  (means (tri_or x y) c -> exists a b, means x a /\ means y b /\ c = a || b) /\
  (means (tri_eq x y) c -> exists a b, means x a /\ means y b /\ c = Bool.eqb a b) /\
  (means (tri_neq x y) c -> exists a b, means x a /\ means y b /\ c = negb (Bool.eqb a b)).
Proof. exact @tri_ops_exact_lemma. Qed.
Print Assumptions tri_ops_exact.

(** ** C159 *)
Theorem orun_correct : forall (A : Type) sts (s : nat -> opt A) t, (forall n, shows (s n) (t n)) ->
  exists s', orun sts s = Ok s' /\ forall n, shows (s' n) (srun sts t n).
Proof. exact @orun_correct_lemma. Qed.
Print Assumptions orun_correct.
Example orun_ex : exists s, orun [SSet 0 5; SCond 1 false 7; SCopy 2 0; SSwap 0 1; SReset 2] (fun _ => opt_none) = Ok s /\
  shows (s 0) None /\ shows (s 1) (Some 5) /\ shows (s 2) None.
Proof. eexists. split; [reflexivity|]. repeat split. Qed.

Theorem observers_correct : forall (A : Type) (o : opt A) v, shows o v ->
  is_initialized o = (match v with Some _ => true | None => false end) /\
  osize o = (match v with Some _ => 1 | None => 0 end) /\
  oempty o = (match v with Some _ => false | None => true end) /\
  value o = Ok (match v with Some a => Value a | None => Bad_access end) /\
  get_pointer o = Ok (match v with Some a => Value a | None => Null end) /\
  (forall d, value_or o d = Ok (match v with Some a => a | None => d end)) /\
  (forall i, oat o i = Ok (match v, i with Some a, 0 => Value a | _, _ => Out_of_range end)) /\
  deref o = match v with Some a => Ok a | None => UB end.
Proof. exact @observers_correct_lemma. Qed.
Print Assumptions observers_correct.

Theorem constructors_correct : forall (A : Type) (a : A) c,
  shows (@opt_none A) None /\ shows (opt_some a) (Some a) /\ shows (opt_cond c a) (if c then Some a else None).
Proof. exact @constructors_correct_lemma. Qed.
Print Assumptions constructors_correct.

Theorem free_get_pointer_refuted : forall (A : Type) (a : A), exists s, orun [SSet 0 a; SReset 0] (fun _ => opt_none) = Ok s /\
  is_initialized (s 0) = false /\ get_pointer (s 0) = Ok Null /\ free_get_pointer (s 0) = Value a.
Proof. exact @free_get_pointer_refuted_lemma. Qed.
Print Assumptions free_get_pointer_refuted.

(** ** C160 *)
Theorem opt_compare_correct : forall (A : Type) (eqb less : A -> A -> bool) (o p : opt A) v w, shows o v -> shows p w ->
  opt_eq eqb o p = Ok (option_eq eqb v w) /\ opt_neq eqb o p = Ok (negb (option_eq eqb v w)) /\
  opt_lt less o p = Ok (option_less less v w) /\ opt_gt less o p = Ok (option_less less w v) /\
  opt_le less o p = Ok (negb (option_less less w v)) /\ opt_ge less o p = Ok (negb (option_less less v w)).
Proof. exact @opt_compare_correct_lemma. Qed.
Print Assumptions opt_compare_correct.
Example opt_compare_ex : opt_lt Nat.ltb (Opt false (Some 9)) (opt_some 0) = Ok true /\ opt_eq Nat.eqb (Opt false (Some 9)) opt_none = Ok true.
Proof. split; reflexivity. Qed.

Theorem null_compare_correct : forall (A : Type) (eqb less : A -> A -> bool) (o : opt A) v, shows o v ->
  eq_null o = option_eq eqb v None /\ null_eq o = option_eq eqb None v /\
  neq_null o = negb (option_eq eqb v None) /\ null_neq o = negb (option_eq eqb None v) /\
  lt_null o = option_less less v None /\ null_lt o = option_less less None v /\
  gt_null o = option_less less None v /\ null_gt o = option_less less v None /\
  le_null o = negb (option_less less None v) /\ null_le o = negb (option_less less v None) /\
  ge_null o = negb (option_less less v None) /\ null_ge o = negb (option_less less None v).
Proof. exact @null_compare_correct_lemma. Qed.
Print Assumptions null_compare_correct.

Theorem option_less_order : forall (A : Type) (less : A -> A -> bool), strict_weak_order less -> strict_weak_order (option_less less).
Proof. exact @option_less_order_lemma. Qed.
Print Assumptions option_less_order.

(** ** C161 *)
Theorem var_of_correct : forall (V : Type) types dflt t (a : V),
  (In t types -> exists x i, var_of types dflt t a = Some x /\ stores types x i a /\
     nth i types 0 = t /\ forall j, j < i -> nth j types 0 <> t) /\
  (~ In t types -> var_of types dflt t a = None).
Proof. exact @var_of_correct_lemma. Qed.
Print Assumptions var_of_correct.
Example var_of_ex : exists x, var_of [3; 4; 3] (fun _ => 0) 4 17 = Some x /\ stores [3; 4; 3] x 1 17 /\
  apply_visitor [3; 4; 3] x (fun t v => (t, v)) = Ok (4, 17) /\ var_get [3; 4; 3] x 3 = UB.
Proof. eexists. split; [reflexivity|]. unfold stores. cbn. repeat split; auto with arith. Qed.

Theorem var_default_correct : forall (V : Type) t ts (dflt : nat -> V), stores (t :: ts) (var_default (t :: ts) dflt) 0 (dflt t).
Proof. exact @var_default_correct_lemma. Qed.
Print Assumptions var_default_correct.

Theorem apply_visitor_correct : forall (V : Type) types R (v : nat -> V -> R) x i a, stores types x i a ->
  apply_visitor types x v = Ok (v (nth i types 0) a).
Proof. exact @apply_visitor_correct_lemma. Qed.
Print Assumptions apply_visitor_correct.

Theorem var_get_correct : forall (V : Type) types (x : variant V) i a t, stores types x i a ->
  (nth i types 0 = t -> (forall j, j < i -> nth j types 0 <> t) -> var_get types x t = Ok a) /\
  (nth i types 0 <> t -> var_get types x t = UB).
Proof. exact @var_get_correct_lemma. Qed.
Print Assumptions var_get_correct.

Theorem var_compare_correct : forall (V : Type) types (eqb less : nat -> V -> V -> bool) x y i j a b,
  stores types x i a -> stores types y j b ->
  let eq := (i =? j) && eqb (nth i types 0) a b in
  let lt := (i <? j) || ((i =? j) && less (nth i types 0) a b) in
  let gt := (j <? i) || ((i =? j) && less (nth i types 0) b a) in
  var_eq types eqb x y = Ok eq /\ var_neq types eqb x y = Ok (negb eq) /\
  var_lt types less x y = Ok lt /\ var_gt types less x y = Ok gt /\
  var_le types less x y = Ok (negb gt) /\ var_ge types less x y = Ok (negb lt).
Proof. exact @var_compare_correct_lemma. Qed.
Print Assumptions var_compare_correct.
Example var_compare_ex :
  var_lt [3; 4] (fun _ => Nat.ltb) (Variant [9; 1] 1) (Variant [2; 5] 1) = Ok true /\
  var_lt [3; 4] (fun _ => Nat.ltb) (Variant [9; 1] 0) (Variant [2; 5] 1) = Ok true.
Proof. split; reflexivity. Qed.

Theorem alternatives_order : forall (V : Type) types (less : nat -> V -> V -> bool), (forall t, strict_weak_order (less t)) ->
  strict_weak_order (fun p q : nat * V => (fst p <? fst q) || ((fst p =? fst q) && less (nth (fst p) types 0) (snd p) (snd q))).
Proof. exact @alternatives_order_lemma. Qed.
Print Assumptions alternatives_order.

Theorem var_swap_correct : forall (V : Type) types (x y : variant V) i j a b, stores types x i a -> stores types y j b ->
  stores types (fst (var_swap x y)) j b /\ stores types (snd (var_swap x y)) i a.
Proof. exact @var_swap_correct_lemma. Qed.
Print Assumptions var_swap_correct.
