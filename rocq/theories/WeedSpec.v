(** What weed parsers mean: parsing expression grammars over the text, written without the
    evaluator of WeedModel.v.  [peg s e i o]: at position [i] of [s] the expression [e] fails
    ([None]) or matches up to position [j] and yields the items [y] ([Some (j, y)]). *)
From Coq Require Import List Arith ZArith Bool.
From Verif Require Import Base BitModel WordModel WeedModel.
Import ListNotations.
Open Scope nat_scope.

(** * What attributes contain *)
Inductive item : Type := IChar (c : Z) | IInt (t : ity) (z : Z).
Definition val_items (v : val) : list item :=
  match v with
  | VChar c => [IChar c]
  | VInt t z => [IInt t z]
  | VStr l => map IChar l
  | VInts t l => map (IInt t) l
  end.
Definition items (a : attr) : list item :=
  match a with AUnused | AOther => [] | ABase v => val_items v | ATup l => flat_map val_items l end.

(** An attribute of a type *)
Definition typed (a : attr) (t : aty) : Prop :=
  match a, t with
  | AUnused, TUnused => True
  | ABase v, TBase b => val_ty v = b
  | ATup l, TTup m => map val_ty l = m
  | _, _ => False
  end.

(** * Terminals *)
(** A set is a text of characters and of ranges a-b. *)
Definition in_set (set : list Z) (v : Z) : Prop :=
  (In v set /\ v <> 45%Z) \/
  (exists pre a b post, set = pre ++ a :: 45%Z :: b :: post /\ (a <= v <= b)%Z).

(** Digits and numbers *)
Definition digit_of (radix c : Z) : option Z :=
  let v := (if (48 <=? c) && (c <=? 57) then c - 48
            else if (97 <=? c) && (c <=? 102) then c - 87
            else if (65 <=? c) && (c <=? 70) then c - 55
            else 99)%Z in
  if (v <? radix)%Z then Some v else None.
(** the digits at the beginning of a text, [most] of them at most *)
Fixpoint run (radix most : Z) (l : list Z) : list Z :=
  match l with
  | [] => []
  | c :: l =>
      if (0 <? most)%Z then
        match digit_of radix c with Some v => v :: run radix (most - 1) l | None => [] end
      else []
  end.
Fixpoint horner (radix a : Z) (ds : list Z) : Z :=
  match ds with [] => a | v :: ds => horner radix (a * radix + v)%Z ds end.

Section Peg.
  Variable s : list Z.

  Definition outcome : Type := option (nat * list item).

  (** one character that satisfies [T] *)
  Definition char_peg (T : Z -> Prop) (y : Z -> list item) (i : nat) (o : outcome) : Prop :=
    (exists c, nth_error s i = Some c /\ T c /\ o = Some (S i, y c)) \/
    ((forall c, nth_error s i = Some c -> ~ T c) /\ o = None).
  (** a given text *)
  Definition text_peg (t : list Z) (y : list item) (i : nat) (o : outcome) : Prop :=
    (firstn (length t) (skipn i s) = t /\ o = Some (i + length t, y)) \/
    (firstn (length t) (skipn i s) <> t /\ o = None).
  (** digits from position [i + n] on, a number with the sign [sg] *)
  Definition num_peg (t : ity) (radix maxd : Z) (sg : Z) (n i : nat) (o : outcome) : Prop :=
    let ds := run radix maxd (skipn (i + n) s) in
    (ds <> [] /\ o = Some (i + n + length ds, [IInt t (conv t (sg * horner radix 0 ds))])) \/
    (ds = [] /\ o = None).
  Definition is_at (c : Z) (i : nat) : Prop := nth_error s i = Some c.

  Definition prim_peg (p : prim) (i : nat) (o : outcome) : Prop :=
    match p with
    | PEps => o = Some (i, [])
    | PEoi => (i = length s /\ o = Some (i, [])) \/ (i <> length s /\ o = None)
    | PEol =>
        (is_at 13 i /\ is_at 10 (S i) /\ o = Some (i + 2, [])) \/
        (is_at 13 i /\ ~ is_at 10 (S i) /\ o = Some (i + 1, [])) \/
        (is_at 10 i /\ o = Some (i + 1, [])) \/
        (~ is_at 13 i /\ ~ is_at 10 i /\ o = None)
    | PLitChar t => char_peg (fun c => c = t) (fun _ => []) i o
    | PChar t => char_peg (fun c => c = t) (fun c => [IChar c]) i o
    | PRange f l => char_peg (fun c => f <= c <= l)%Z (fun c => [IChar c]) i o
    | PSet set => char_peg (in_set set) (fun c => [IChar c]) i o
    | PAny => char_peg (fun _ => True) (fun c => [IChar c]) i o
    | PClass is void => char_peg (fun c => is c = true) (fun c => if void then [] else [IChar c]) i o
    | PLitStr t => text_peg t [] i o
    | PStr t => text_peg t (map IChar t) i o
    | PUint t radix _ maxd => num_peg t radix maxd 1 0 i o
    | PInt t radix _ maxd =>
        (is_at 43 i /\ num_peg t radix maxd 1 1 i o) \/
        (is_at 45 i /\ num_peg t radix maxd (-1) 1 i o) \/
        (~ is_at 43 i /\ ~ is_at 45 i /\ num_peg t radix maxd 1 0 i o)
    end.

  (** * Repetition *)
  (** [P] as often as possible, but not more often than [b] *)
  Inductive reps (P : nat -> outcome -> Prop) : option nat -> nat -> list (list item) -> nat -> Prop :=
  | reps_full i : reps P (Some 0) i [] i
  | reps_end b i : b <> Some 0 -> P i None -> reps P b i [] i
  | reps_more b i j y ys l :
      b <> Some 0 -> P i (Some (j, y)) -> reps P (option_map pred b) j ys l -> reps P b i (y :: ys) l.
  (** A separator [Q] and [P] as often as possible.  A separator that nothing follows is consumed
      when [trail] holds. *)
  Inductive seps (trail : bool) (P Q : nat -> outcome -> Prop) : option nat -> nat -> list (list item) -> nat -> Prop :=
  | seps_full i : seps trail P Q (Some 0) i [] i
  | seps_end b i : b <> Some 0 -> Q i None -> seps trail P Q b i [] i
  | seps_last b i j x : b <> Some 0 -> Q i (Some (j, x)) -> P j None -> seps trail P Q b i [] (if trail then j else i)
  | seps_more b i j x l y ys m :
      b <> Some 0 -> Q i (Some (j, x)) -> P j (Some (l, y)) -> seps trail P Q (option_map pred b) l ys m ->
      seps trail P Q b i (y :: ys) m.

  (** lim<n>(e, cat): how often the operand of a repetition is tried, and which yields are kept *)
  Definition most (e : pexp) : option nat := match e with ELim n Stopover _ => Some n | _ => None end.
  Definition kept (e : pexp) (ys : list (list item)) : list (list item) :=
    match e with
    | ELim n Discard _ => firstn n ys
    | ELim n Circular _ => skipn (length ys - n) ys
    | _ => ys
    end.

  (** * Expressions *)
  Fixpoint peg (e : pexp) (i : nat) (o : outcome) : Prop :=
    match e with
    | EPrim p => prim_peg p i o
    | XChar t => char_peg (fun c => c = t) (fun _ => []) i o
    | XStr t => text_peg t [] i o
    | ESeq e f =>
        (exists j y l z, peg e i (Some (j, y)) /\ peg f j (Some (l, z)) /\ o = Some (l, y ++ z)) \/
        (exists j y, peg e i (Some (j, y)) /\ peg f j None /\ o = None) \/
        (peg e i None /\ o = None)
    | EAlt e f => (exists x, o = Some x /\ peg e i o) \/ (peg e i None /\ peg f i o)
    | EPlus e =>
        (exists ys j, reps (peg e) (most e) i ys j /\ ys <> [] /\ o = Some (j, concat (kept e ys))) \/
        (peg e i None /\ o = None)
    | EStar e => exists ys j, reps (peg e) (most e) i ys j /\ o = Some (j, concat (kept e ys))
    | EMod e f =>
        (exists j y ys l, peg e i (Some (j, y)) /\ seps true (peg e) (peg f) (option_map pred (most e)) j ys l /\
                          o = Some (l, concat (kept e (y :: ys)))) \/
        (peg e i None /\ o = None)
    | EAnd e => (exists x, peg e i (Some x) /\ o = Some (i, [])) \/ (peg e i None /\ o = None)
    | ENot e => (exists x, peg e i (Some x) /\ o = None) \/ (peg e i None /\ o = Some (i, []))
    | EMinus e f =>
        (exists x, o = Some x /\ peg e i o /\ peg f i None) \/
        (exists x y, peg e i (Some x) /\ peg f i (Some y) /\ o = None) \/
        (peg e i None /\ o = None)
    | ENeg e => (exists x, o = Some x /\ peg e i o) \/ (peg e i None /\ o = Some (i, []))
    | EMem _ e | ELim _ _ e | EAsTuple e => peg e i o
    | ERepeat count e =>
        let b := match e with ELim n _ _ => Some n | _ => None end in
        exists ys j, reps (peg e) b i ys j /\
          match count with
          | Some c => o = if c <=? length ys then Some (j, concat ys) else None
          | None => o = Some (j, concat ys)
          end
    | EOmit e => (exists j y, peg e i (Some (j, y)) /\ o = Some (j, [])) \/ (peg e i None /\ o = None)
    | EReplace v e => (exists j y, peg e i (Some (j, y)) /\ o = Some (j, val_items v)) \/ (peg e i None /\ o = None)
    end.
End Peg.

(** * Expressions for which the code is right *)
(** may match without consuming anything *)
Fixpoint nullable (e : pexp) : bool :=
  match e with
  | EPrim (PEps | PEoi | PLitStr [] | PStr []) | XStr [] => true
  | EPrim _ | XChar _ | XStr _ => false
  | ESeq e f => nullable e && nullable f
  | EAlt e f => nullable e || nullable f
  | EStar _ | EAnd _ | ENot _ | ENeg _ => true
  | EPlus e | EMod e _ | EMinus e _ | EMem _ e | ELim _ _ e | EOmit e | EReplace _ e | EAsTuple e => nullable e
  | ERepeat None _ => true
  | ERepeat (Some c) e => (c =? 0) || nullable e
  end.

Section Wf.
  Variable int_digits : ity -> Z -> Z.

  Definition num_ok (t : ity) (radix mind maxd : Z) : Prop :=
    In radix [2; 8; 10; 16]%Z /\ (mind <= 1)%Z /\ (2 <= maxd)%Z /\ (2 <= int_digits t radix)%Z.
  Definition prim_ok (p : prim) : Prop :=
    match p with
    | PSet set => hd 0%Z set <> 45%Z /\ last set 0%Z <> 45%Z
    | PUint t radix mind maxd | PInt t radix mind maxd => num_ok t radix mind maxd
    | _ => True
    end.
  (** limits of repetitions *)
  Definition lim_ok (e : pexp) : Prop :=
    match e with ELim n Stopover _ => 2 <= n | ELim n _ _ => 1 <= n | _ => True end.
  Definition repeat_ok (count : option nat) (e : pexp) : Prop :=
    match count with
    | None => False
    | Some c => match e with ELim n _ _ => 2 <= n /\ (c = 0 \/ c = n) | _ => c = 0 end
    end.
  Fixpoint wf (e : pexp) : Prop :=
    match e with
    | EPrim p => prim_ok p
    | XChar _ | XStr _ => True
    | ESeq e f | EAlt e f | EMinus e f => wf e /\ wf f
    | EPlus e | EStar e => wf e /\ nullable e = false /\ lim_ok e
    | EMod e f => wf e /\ wf f /\ nullable e && nullable f = false /\ lim_ok e
    | ERepeat count e => wf e /\ nullable e = false /\ repeat_ok count e
    | EAnd e | ENot e | ENeg e | EMem _ e | ELim _ _ e | EOmit e | EReplace _ e | EAsTuple e => wf e
    end.
End Wf.

(** the longest character set: it decides the depth of recursion *)
Fixpoint set_size (e : pexp) : nat :=
  match e with
  | EPrim (PSet set) => length set
  | EPrim _ | XChar _ | XStr _ => 0
  | ESeq e f | EAlt e f | EMinus e f | EMod e f => Nat.max (set_size e) (set_size f)
  | EPlus e | EStar e | ERepeat _ e | EAnd e | ENot e | ENeg e | EMem _ e | ELim _ _ e | EOmit e | EReplace _ e
  | EAsTuple e => set_size e
  end.
(** reads a signed number of 32 bits or more *)
Fixpoint wide_int (e : pexp) : bool :=
  match e with
  | EPrim (PInt t _ _ _) => sgn t && (2 <=? lg t)
  | EPrim _ | XChar _ | XStr _ => false
  | ESeq e f | EAlt e f | EMinus e f | EMod e f => wide_int e || wide_int f
  | EPlus e | EStar e | ERepeat _ e | EAnd e | ENot e | ENeg e | EMem _ e | ELim _ _ e | EOmit e | EReplace _ e
  | EAsTuple e => wide_int e
  end.
(** without string(...) where its attribute counts *)
Fixpoint no_str (e : pexp) : bool :=
  match e with
  | EPrim (PStr _) => false
  | EPrim _ | XChar _ | XStr _ | EAnd _ | ENot _ | EOmit _ | EReplace _ _ => true
  | ESeq e f | EAlt e f => no_str e && no_str f
  | EMinus e _ | EMod e _ | EPlus e | EStar e | ERepeat _ e | ENeg e | EMem _ e | ELim _ _ e | EAsTuple e => no_str e
  end.

(** integer_digits of WordModel.v *)
Definition word_digits (t : ity) (radix : Z) : Z := match integer_digits t radix with Ok n => n | _ => 0%Z end.

(** the text does not begin with a digit *)
Definition no_digit (radix : Z) (l : list Z) : Prop := forall c, nth_error l 0 = Some c -> digit_of radix c = None.
(** [cs] are the digits of [z], and the text that follows, [post], does not belong to the number *)
Definition spells (radix maxd : Z) (cs post : list Z) (z : Z) : Prop :=
  cs <> [] /\ (Z.of_nat (length cs) <= maxd)%Z /\ (Z.of_nat (length cs) = maxd \/ no_digit radix post) /\
  exists ds, Forall2 (fun c v => digit_of radix c = Some v) cs ds /\ horner radix 0 ds = z.
(** what is observed of a result: success and position *)
Definition seen (x : res eres) : option (bool * nat) := match x with Ok r => Some (ok r, cur r) | _ => None end.
(** without signed numbers of 32 bits or more and with all conditions for [eval] *)
Definition fine (s : list Z) (d : nat) (e : pexp) : Prop :=
  wf word_digits e /\ wide_int e = false /\ Nat.log2_up (set_size e) < d.
