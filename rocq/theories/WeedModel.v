(** Model of sprout/weed: parsers built from terminals with C++ operators.

    The input is a list of characters and iterators are positions in it; [length s] is the end.  An
    expression of the C++ program is a value of [pexp].  There are no recursive rules in weed, so
    evaluation follows the expression; only repetition needs a cap [k] on the number of turns
    ([Fuel] when it is exceeded).  *)
From Coq Require Import List Arith ZArith Bool.
From Verif Require Import Base BitModel.
Import ListNotations.
Open Scope nat_scope.

(** * Attributes *)
(** The values of attributes other than unused and tuples: characters, numbers of an integer type,
    sprout::basic_string (its contents; the capacity is not part of the value) and sprout::array of
    numbers. *)
Inductive val : Type :=
| VChar (c : Z)
| VInt (t : ity) (z : Z)
| VStr (l : list Z)
| VInts (t : ity) (l : list Z).
(** [AOther]: an attribute that is not modelled (variants, arrays of arrays and the like) *)
Inductive attr : Type := AUnused | ABase (v : val) | ATup (l : list val) | AOther.

(** Their types; [TOther] also stands for what does not compile. *)
Inductive bty : Type := BChar | BInt (t : ity) | BStr | BInts (t : ity) (n : nat).
Inductive aty : Type := TUnused | TBase (b : bty) | TTup (l : list bty) | TOther.

Definition ity_eqb (t u : ity) : bool := Bool.eqb (sgn t) (sgn u) && (lg t =? lg u).

(** attribute_type() *)
Definition default_val (b : bty) : val :=
  match b with
  | BChar => VChar 0
  | BInt t => VInt t 0
  | BStr => VStr []
  | BInts t n => VInts t (repeat 0%Z n)
  end.
Definition default_attr (t : aty) : attr :=
  match t with
  | TUnused => AUnused
  | TBase b => ABase (default_val b)
  | TTup l => ATup (map default_val l)
  | TOther => AOther
  end.

(** attr_cnv/results/shift_left.hpp 38-168 with detail/is_*.hpp *)
Definition seq_bty (b c : bty) : aty :=
  match b, c with
  | BStr, BStr | BStr, BChar | BChar, BStr | BChar, BChar => TBase BStr
  | BInts t n, BInts u m => if ity_eqb t u then TBase (BInts t (n + m)) else TTup [b; c]
  | BInts t n, BInt u => if ity_eqb t u then TBase (BInts t (n + 1)) else TTup [b; c]
  | BInt t, BInts u m => if ity_eqb t u then TBase (BInts u (1 + m)) else TTup [b; c]
  | BInt t, BInt u => if ity_eqb t u then TBase (BInts t 2) else TTup [b; c]
  | _, _ => TTup [b; c]
  end.
Definition seq_ty (t u : aty) : aty :=
  match t, u with
  | TOther, _ | _, TOther => TOther
  | t, TUnused => t
  | TUnused, u => u
  | TBase b, TBase c => seq_bty b c
  | TTup l, TTup m => TTup (l ++ m)
  | TTup l, TBase c => TTup (l ++ [c])
  | TBase b, TTup m => TTup (b :: m)
  end.
(** attr_cnv/shift_left.hpp 38-127; the overload is chosen by the types, which the values show *)
Definition seq_val (v w : val) : attr :=
  match v, w with
  | VStr l, VStr m => ABase (VStr (l ++ m))
  | VStr l, VChar c => ABase (VStr (l ++ [c]))
  | VChar c, VStr m => ABase (VStr (c :: m))
  | VChar c, VChar d => ABase (VStr [c; d])
  | VInts t l, VInts u m => if ity_eqb t u then ABase (VInts t (l ++ m)) else ATup [v; w]
  | VInts t l, VInt u z => if ity_eqb t u then ABase (VInts t (l ++ [z])) else ATup [v; w]
  | VInt t z, VInts u m => if ity_eqb t u then ABase (VInts u (z :: m)) else ATup [v; w]
  | VInt t z, VInt u y => if ity_eqb t u then ABase (VInts t [z; y]) else ATup [v; w]
  | _, _ => ATup [v; w]
  end.
Definition seq_attr (a b : attr) : attr :=
  match a, b with
  | AOther, _ | _, AOther => AOther
  | a, AUnused => a
  | AUnused, b => b
  | ABase v, ABase w => seq_val v w
  | ATup l, ATup m => ATup (l ++ m)
  | ATup l, ABase w => ATup (l ++ [w])
  | ABase v, ATup m => ATup (v :: m)
  end.

(** attr_cnv/results/bitwise_or.hpp 36-161 and attr_cnv/bitwise_or.hpp 34-152.  An element before a
    container does not compile: results/bitwise_or.hpp 79 asks for the size of the element. *)
Definition alt_ty (t u : aty) : aty :=
  match t, u with
  | TUnused, TUnused => TUnused
  | TBase BChar, TBase BChar => TBase BChar
  | TBase BStr, TBase BStr => TBase BStr
  | TBase (BInt t), TBase (BInt u) => if ity_eqb t u then TBase (BInt t) else TOther
  | TBase (BInts t n), TBase (BInts u m) => if ity_eqb t u && (n =? m) then TBase (BInts t n) else TOther
  | TBase BStr, TBase BChar => TBase BStr
  | TBase BChar, TUnused | TUnused, TBase BChar => TBase BStr
  | _, _ => TOther
  end.
Definition alt_attr (t u : aty) (a : attr) : attr :=
  match t, u with
  | TUnused, TUnused => AUnused
  | TBase BChar, TBase BChar | TBase BStr, TBase BStr => a
  | TBase (BInt t), TBase (BInt u) => if ity_eqb t u then a else AOther
  | TBase (BInts t n), TBase (BInts u m) => if ity_eqb t u && (n =? m) then a else AOther
  | TBase BStr, TBase BChar => match a with ABase (VChar c) => ABase (VStr [c]) | a => a end
  | TBase BChar, TUnused | TUnused, TBase BChar =>
      match a with ABase (VChar c) => ABase (VStr [c]) | _ => ABase (VStr []) end
  | _, _ => AOther
  end.

(** attr_cnv/results/times.hpp 28-73, attr_cnv/times.hpp 25-55 (attr_cnv/modulus.hpp is the same): with
    a limit; strings are joined, characters make a string *)
Definition times_ty (t : aty) : aty :=
  match t with TUnused => TUnused | TBase BChar | TBase BStr => TBase BStr | _ => TOther end.
Definition join_val (a : attr) : list Z :=
  match a with ABase (VChar c) => [c] | ABase (VStr l) => l | _ => [] end.
Definition times_attr (t : aty) (args : list attr) : attr :=
  match t with
  | TUnused => AUnused
  | TBase BChar | TBase BStr => ABase (VStr (flat_map join_val args))
  | _ => AOther
  end.

(** * Terminals *)
Inductive prim : Type :=
| PEps | PEoi | PEol
| PLitChar (c : Z) | PChar (c : Z) | PRange (f l : Z) | PSet (set : list Z) | PAny
| PClass (is : Z -> bool) (void : bool)
| PLitStr (t : list Z) | PStr (t : list Z)
| PUint (t : ity) (radix mind maxd : Z) | PInt (t : ity) (radix mind maxd : Z).

(** limited.hpp 18-24 *)
Inductive category : Type := Discard | Circular | Stopover.

(** The expressions; [XChar] and [XStr] are literals that stand as operands.  [ELim] is lim<n>(e, cat),
    [ERepeat None] is repeat[e] and [ERepeat (Some c)] is repeat(c)[e]. *)
Inductive pexp : Type :=
| EPrim (p : prim)
| XChar (c : Z) | XStr (t : list Z)
| ESeq (e f : pexp) | EAlt (e f : pexp)
| EPlus (e : pexp) | EStar (e : pexp) | EMod (e f : pexp)
| EAnd (e : pexp) | ENot (e : pexp) | EMinus (e f : pexp) | ENeg (e : pexp)
| EMem (f : attr -> attr) (e : pexp)
| ELim (n : nat) (cat : category) (e : pexp)
| ERepeat (count : option nat) (e : pexp)
| EOmit (e : pexp) | EReplace (v : val) (e : pexp) | EAsTuple (e : pexp).

Definition val_ty (v : val) : bty :=
  match v with VChar _ => BChar | VInt t _ => BInt t | VStr _ => BStr | VInts t l => BInts t (length l) end.
Definition prim_ty (p : prim) : aty :=
  match p with
  | PEps | PEoi | PEol | PLitChar _ | PLitStr _ => TUnused
  | PChar _ | PRange _ _ | PSet _ | PAny => TBase BChar
  | PClass _ void => if void then TUnused else TBase BChar
  | PStr _ => TBase BStr
  | PUint t _ _ _ | PInt t _ _ _ => TBase (BInt t)
  end.
(** traits/parser/limit_of.hpp, parser/lim.hpp 90-97 *)
Definition limit_of (e : pexp) : option (nat * category) :=
  match e with ELim n cat _ => Some (n, cat) | _ => None end.
Definition times_of (e : pexp) (t : aty) : aty :=
  match limit_of e with
  | Some _ => times_ty t
  | None => match t with TUnused => TUnused | _ => TOther end
  end.
(** traits/parser/attribute_of.hpp and the members attribute and attribute_type *)
Fixpoint ty_of (e : pexp) : aty :=
  match e with
  | EPrim p => prim_ty p
  | XChar _ | XStr _ => TUnused
  | ESeq e f => seq_ty (ty_of e) (ty_of f)
  | EAlt e f => alt_ty (ty_of e) (ty_of f)
  | EPlus e | EStar e | EMod e _ | ERepeat _ e => times_of e (ty_of e)
  | EAnd _ | ENot _ | EOmit _ => TUnused
  | EMinus e _ | ELim _ _ e => ty_of e
  | ENeg e => match ty_of e with TUnused => TUnused | _ => TOther end
  | EMem _ _ => TOther
  | EReplace v _ => TBase (val_ty v)
  | EAsTuple e => match ty_of e with TBase b => TTup [b] | _ => TOther end
  end.

(** * Evaluation *)
(** eval_result.hpp 20-58 with parser_result.hpp 19-44: success, position, attribute and the
    beginning of the new context *)
Record eres : Type := ER { ok : bool; cur : nat; at_ : attr; cx : nat }.

(** detail/bdigits.hpp, odigits.hpp, digits.hpp, xdigits.hpp *)
Definition digits : list Z := [48; 49; 50; 51; 52; 53; 54; 55; 56; 57]%Z.
Definition values : list Z := [0; 1; 2; 3; 4; 5; 6; 7; 8; 9]%Z.
Definition bdigits : list Z := [48; 49]%Z.
Definition bvalues : list Z := [0; 1]%Z.
Definition odigits : list Z := [48; 49; 50; 51; 52; 53; 54; 55]%Z.
Definition ovalues : list Z := [0; 1; 2; 3; 4; 5; 6; 7]%Z.
Definition xdigits : list Z :=
  [48; 49; 50; 51; 52; 53; 54; 55; 56; 57; 97; 98; 99; 100; 101; 102; 65; 66; 67; 68; 69; 70]%Z.
Definition xvalues : list Z := [0; 1; 2; 3; 4; 5; 6; 7; 8; 9; 10; 11; 12; 13; 14; 15; 10; 11; 12; 13; 14; 15]%Z.
(** sprout::find: the position, or the number of elements *)
Fixpoint position (c : Z) (l : list Z) : nat :=
  match l with [] => 0 | d :: l => if Z.eqb d c then 0 else S (position c l) end.
(** value_at, bvalue_at, ... 48-59; [size] is the bound that is written there *)
Definition value_at (values : list Z) (size i : nat) : Z * bool :=
  if i <? size then (nth i values 0%Z, true) else (0%Z, false).
(** detail/ndigits.hpp 21-54; another radix does not compile *)
Definition from_ndigit (radix : Z) (c : Z) : Z * bool :=
  if (radix =? 10)%Z then value_at values 10 (position c digits)
  else if (radix =? 2)%Z then value_at bvalues 2 (position c bdigits)
  else if (radix =? 8)%Z then value_at ovalues 8 (position c odigits)
  else if (radix =? 16)%Z then value_at xvalues 22 (position c xdigits)
  else (0%Z, false).

Fixpoint list_eqb (l m : list Z) : bool :=
  match l, m with
  | [], [] => true
  | x :: l, y :: m => Z.eqb x y && list_eqb l m
  | _, _ => false
  end.

Section Eval.
  (** The input *)
  Variable s : list Z.
  (** The depth of recursion of find_character_set and the cap of turns *)
  Variables (d k : nat).
  (** integer_digits<IntType, Radix> *)
  Variable int_digits : ity -> Z -> Z.

  (** detail/find_character_set.hpp 27-61: the set is a sprout::basic_string, whose characters are
      followed by 0 *)
  Definition set_test (set : list Z) (value : Z) (i _ : nat) : res bool :=
    c <- rd (set ++ [0%Z]) i ;;
    if (c =? 45)%Z then
      match i with
      | 0 => UB
      | S j => p <- rd (set ++ [0%Z]) j ;; if (p <=? value)%Z then n <- rd (set ++ [0%Z]) (S i) ;; Ok (value <=? n)%Z else Ok false
      end
    else Ok (c =? value)%Z.
  Definition find_character_set (set : list Z) (value : Z) : res nat :=
    if 0 =? length set then Ok (length set)
    else ra_search d (set_test set value) 0 (length set) (length set / 2) 0.

  (** uint_p.hpp 33-193, int_p.hpp 34-213.  [m] is last - first. *)
  Section Number.
    Variables (t : ity) (radix mind maxd : Z) (temp_first : nat).
    Definition limit_digits : Z := if (maxd <=? int_digits t radix)%Z then maxd else int_digits t radix.
    (** parser_result *)
    Record pnum : Type := PN { nok : bool; ncur : nat; nval : Z }.
    (** uint_p.hpp 63-143, int_p.hpp 64-144: call_0 with both call_1 *)
    Fixpoint call_0 (m : nat) (N : Z) (first : nat) (v : Z) (n : Z) : res pnum :=
      match m with
      | 0 => if (N <? mind)%Z then Ok (PN false temp_first 0) else Ok (PN true first v)
      | S m =>
          c <- rd s first ;;
          let N := (N + 1)%Z in
          let n := (n + 1)%Z in
          let r := from_ndigit radix c in
          if snd r then
            let v' := conv t (v * radix + fst r) in
            if (N =? limit_digits)%Z then
              if (n <? maxd)%Z then call_0 m (N - 1) (S first) v' n else Ok (PN true (S first) v')
            else call_0 m N (S first) v' n
          else if (N <? mind)%Z then Ok (PN false temp_first 0) else Ok (PN true first v)
      end.
    (** uint_p.hpp 144-163, int_p.hpp 145-163 *)
    Definition call_i (first : nat) (c : Z) : res pnum :=
      let r := from_ndigit radix c in
      if snd r then call_0 (length s - S first) 1 (S first) (conv t (fst r)) 1 else Ok (PN false temp_first 0).
    (** uint_p.hpp 176-191 *)
    Definition uint_parse (first : nat) : res pnum :=
      if negb (first =? length s) then c <- rd s first ;; call_i first c else Ok (PN false first 0).
    (** int_p.hpp 52-62; the operand of unary minus is promoted to int (32 bits) at least *)
    Definition make_result (r : pnum) (sign : Z) : res pnum :=
      if nok r && (sign <? 0)%Z then
        if sgn t && (nval r =? tmin t)%Z && (2 <=? lg t) then UB else Ok (PN true (ncur r) (conv t (- nval r)))
      else Ok r.
    (** int_p.hpp 164-184 *)
    Definition int_call (first : nat) (sign : Z) : res pnum :=
      if negb (first =? length s) then c <- rd s first ;; r <- call_i first c ;; make_result r sign
      else Ok (PN false temp_first 0).
    (** int_p.hpp 186-211; [temp_first] is first *)
    Definition int_parse (first : nat) : res pnum :=
      if negb (first =? length s) then
        c <- rd s first ;;
        if (c =? 43)%Z then int_call (S first) 1
        else if (c =? 45)%Z then int_call (S first) (-1)
        else int_call first 0
      else Ok (PN false first 0).
  End Number.

  (** The result of a parser: context/parse_context/terminal/parser.hpp 56-77 adds the context. *)
  Definition presult (success : bool) (current : nat) (a : attr) : eres := ER success current a current.

  (** A parser of one character, with attribute *)
  Definition one (test : Z -> res bool) (a : Z -> attr) (dflt : attr) (first : nat) : res eres :=
    if negb (first =? length s) then
      c <- rd s first ;; b <- test c ;;
      Ok (if b then presult true (S first) (a c) else presult false first dflt)
    else Ok (presult false first dflt).
  (** string.hpp 53-66, 125-138: sprout::equal after the comparison of the lengths *)
  Definition text (t : list Z) (first : nat) : bool :=
    (length t <=? length s - first) && list_eqb t (firstn (length t) (skipn first s)).

  Definition number (t : ity) (r : pnum) : eres := presult (nok r) (ncur r) (ABase (VInt t (nval r))).

  Definition prim_eval (p : prim) (first : nat) : res eres :=
    let char c := ABase (VChar c) in
    match p with
    (** auxiliary/eps.hpp 36-45, eoi.hpp 36-45, eol.hpp 38-60 *)
    | PEps => Ok (presult true first AUnused)
    | PEoi => Ok (presult (first =? length s) first AUnused)
    | PEol =>
        if negb (first =? length s) then
          c <- rd s first ;;
          if (c =? 13)%Z then
            if negb (S first =? length s) then
              e <- rd s (S first) ;;
              Ok (if (e =? 10)%Z then presult true (S (S first)) AUnused else presult true (S first) AUnused)
            else Ok (presult true (S first) AUnused)
          else Ok (if (c =? 10)%Z then presult true (S first) AUnused else presult false first AUnused)
        else Ok (presult false first AUnused)
    (** char/char.hpp 54-68, 110-124, 150-164, 189-203, 220-233 *)
    | PLitChar t => one (fun c => Ok (c =? t)%Z) (fun _ => AUnused) AUnused first
    | PChar t => one (fun c => Ok (c =? t)%Z) char (char 0%Z) first
    | PRange f l => one (fun c => Ok ((f <=? c)%Z && (c <=? l)%Z)) char (char 0%Z) first
    | PSet set => one (fun c => i <- find_character_set set c ;; Ok (negb (i =? length set))) char (char 0%Z) first
    | PAny => one (fun _ => Ok true) char (char 0%Z) first
    (** char/char_class.hpp 22-54 *)
    | PClass is void => one (fun c => Ok (is c)) (fun c => if void then AUnused else char c) (if void then AUnused else char 0%Z) first
    (** string/string.hpp 53-66, 125-138: the attribute of str_p is always empty *)
    | PLitStr t => Ok (if text t first then presult true (first + length t) AUnused else presult false first AUnused)
    | PStr t => Ok (if text t first then presult true (first + length t) (ABase (VStr [])) else presult false first (ABase (VStr [])))
    | PUint t radix mind maxd => r <- uint_parse t radix mind maxd first first ;; Ok (number t r)
    | PInt t radix mind maxd => r <- int_parse t radix mind maxd first first ;; Ok (number t r)
    end.

  (** operator/unary_plus.hpp 160-172, dereference.hpp 160-172; [ev] evaluates the operand *)
  Fixpoint call_inf (k : nat) (ev : nat -> res eres) (ctx : nat) (r : eres) : res eres :=
    match k with
    | 0 => Fuel
    | S k => if ok r then r' <- ev (cx r) ;; call_inf k ev (cx r) r' else Ok (ER true ctx AUnused ctx)
    end.
  (** unary_plus.hpp 51-159: the three overloads; [attrs] is head, attrs... *)
  Fixpoint call_lim (k : nat) (ev : nat -> res eres) (n : nat) (t : aty) (cat : category) (ctx : nat) (r : eres) (attrs : list attr) : res eres :=
    match k with
    | 0 => Fuel
    | S k =>
        if ok r then
          if length attrs =? n then
            match cat with
            | Discard => r' <- ev (cx r) ;; call_lim k ev n t cat (cx r) r' attrs
            | _ => r' <- ev (cx r) ;; call_lim k ev n t cat (cx r) r' (tl attrs ++ [at_ r])
            end
          else if S (length attrs) =? n then
            match cat with
            | Stopover => Ok (ER true (cur r) (times_attr t (attrs ++ [at_ r])) (cx r))
            | _ => r' <- ev (cx r) ;; call_lim k ev n t cat (cx r) r' (attrs ++ [at_ r])
            end
          else r' <- ev (cx r) ;; call_lim k ev n t cat (cx r) r' (attrs ++ [at_ r])
        else Ok (ER true ctx (times_attr t attrs) ctx)
    end.
  (** unary_plus.hpp 173-221, dereference.hpp 173-221; [none] is success when there is no match *)
  Definition repeat_eval (none : bool) (ev : nat -> res eres) (lim : option (nat * category)) (t ta : aty) (ctx : nat) : res eres :=
    r <- ev ctx ;;
    match lim with
    | None => if ok r then r' <- ev (cx r) ;; call_inf k ev (cx r) r' else Ok (ER none ctx (default_attr ta) ctx)
    | Some (n, cat) =>
        if ok r then r' <- ev (cx r) ;; call_lim k ev n t cat (cx r) r' [at_ r] else Ok (ER none ctx (default_attr ta) ctx)
    end.

  (** operator/modulus.hpp 195-220: call_inf_1 with call_inf; [r] is the result of the separator *)
  Fixpoint mod_inf_1 (k : nat) (ev1 ev2 : nat -> res eres) (ctx : nat) (r : eres) : res eres :=
    match k with
    | 0 => Fuel
    | S k =>
        if ok r then
          q <- ev1 (cx r) ;;
          if ok q then r' <- ev2 (cx q) ;; mod_inf_1 k ev1 ev2 (cx q) r' else Ok (ER true (cx r) AUnused (cx r))
        else Ok (ER true ctx AUnused ctx)
    end.
  (** modulus.hpp 53-194: call_1 with the three overloads of call *)
  Fixpoint mod_lim_1 (k : nat) (ev1 ev2 : nat -> res eres) (n : nat) (t : aty) (cat : category) (ctx : nat) (r : eres) (attrs : list attr) : res eres :=
    match k with
    | 0 => Fuel
    | S k =>
        if ok r then
          q <- ev1 (cx r) ;;
          if ok q then
            if length attrs =? n then
              match cat with
              | Discard => r' <- ev2 (cx q) ;; mod_lim_1 k ev1 ev2 n t cat (cx q) r' attrs
              | _ => r' <- ev2 (cx q) ;; mod_lim_1 k ev1 ev2 n t cat (cx q) r' (tl attrs ++ [at_ q])
              end
            else if S (length attrs) =? n then
              match cat with
              | Stopover => Ok (ER true (cur q) (times_attr t (attrs ++ [at_ q])) (cx q))
              | _ => r' <- ev2 (cx q) ;; mod_lim_1 k ev1 ev2 n t cat (cx q) r' (attrs ++ [at_ q])
              end
            else r' <- ev2 (cx q) ;; mod_lim_1 k ev1 ev2 n t cat (cx q) r' (attrs ++ [at_ q])
          else Ok (ER true (cx r) (times_attr t attrs) (cx r))
        else Ok (ER true ctx (times_attr t attrs) ctx)
    end.
  (** modulus.hpp 221-273 *)
  Definition mod_eval (ev1 ev2 : nat -> res eres) (lim : option (nat * category)) (t ta : aty) (ctx : nat) : res eres :=
    r <- ev1 ctx ;;
    match lim with
    | None => if ok r then r' <- ev2 (cx r) ;; mod_inf_1 k ev1 ev2 (cx r) r' else Ok (ER false ctx (default_attr ta) ctx)
    | Some (n, cat) =>
        if ok r then r' <- ev2 (cx r) ;; mod_lim_1 k ev1 ev2 n t cat (cx r) r' [at_ r] else Ok (ER false ctx (default_attr ta) ctx)
    end.

  (** directive/repeat.hpp: [count <= n]; no count is size_t(-1) *)
  Definition count_le (count : option nat) (n : nat) : bool := match count with Some c => c <=? n | None => false end.
  Definition count_max (count : option nat) : bool := match count with None => true | _ => false end.
  (** 84-96 *)
  Fixpoint rep_inf (k : nat) (ev : nat -> res eres) (count : option nat) (first : nat) (r : eres) (n : nat) : res eres :=
    match k with
    | 0 => Fuel
    | S k =>
        if ok r then r' <- ev (cx r) ;; rep_inf k ev count (if count_le count n then cur r else first) r' (S n)
        else Ok (presult (count_le count n || count_max count) first AUnused)
    end.
  (** 48-83 *)
  Fixpoint rep_lim (k : nat) (ev : nat -> res eres) (count : option nat) (n : nat) (t ta : aty) (first : nat) (r : eres) (attrs : list attr) : res eres :=
    match k with
    | 0 => Fuel
    | S k =>
        if ok r then
          if S (length attrs) =? n then Ok (presult true (cur r) (times_attr t (attrs ++ [at_ r])))
          else r' <- ev (cx r) ;; rep_lim k ev count n t ta (if count_le count (length attrs) then cur r else first) r' (attrs ++ [at_ r])
        else if count_le count (length attrs) then Ok (presult true first (times_attr t attrs))
        else Ok (presult false first (default_attr ta))
    end.
  (** 97-149 *)
  Definition rep_eval (ev : nat -> res eres) (count : option nat) (lim : option (nat * category)) (t ta : aty) (first : nat) : res eres :=
    r <- ev first ;;
    match lim with
    | None =>
        if ok r then r' <- ev (cx r) ;; rep_inf k ev count (if count_le count 0 then cur r else first) r' 1
        else Ok (presult (count_le count 0 || count_max count) first (default_attr ta))
    | Some (n, _) =>
        if ok r then r' <- ev (cx r) ;; rep_lim k ev count n t ta (if count_le count 0 then cur r else first) r' [at_ r]
        else Ok (presult (count_le count 0) first (default_attr ta))
    end.

  (** expr/eval.hpp 19-35 with context/parse_context/operator/*.hpp *)
  Fixpoint eval (e : pexp) (ctx : nat) : res eres :=
    let fail := Ok (ER false ctx (default_attr (ty_of e)) ctx) in
    match e with
    | EPrim p => prim_eval p ctx
    (** terminal/char_type.hpp 45-64, terminal/string.hpp 47-76 *)
    | XChar t =>
        if negb (ctx =? length s) then c <- rd s ctx ;; if (c =? t)%Z then Ok (ER true (S ctx) AUnused (S ctx)) else fail
        else fail
    | XStr t => if text t ctx then Ok (ER true (ctx + length t) AUnused (ctx + length t)) else fail
    (** operator/shift_left.hpp 49-100 *)
    | ESeq e f =>
        r <- eval e ctx ;;
        if ok r then
          q <- eval f (cur r) ;;
          if ok q then Ok (ER true (cur q) (seq_attr (at_ r) (at_ q)) (cur q)) else fail
        else fail
    (** operator/bitwise_or.hpp 51-101 *)
    | EAlt e f =>
        r <- eval e ctx ;;
        if ok r then Ok (ER true (cur r) (alt_attr (ty_of e) (ty_of f) (at_ r)) (cur r))
        else
          q <- eval f ctx ;;
          if ok q then Ok (ER true (cur q) (alt_attr (ty_of e) (ty_of f) (at_ q)) (cur q)) else fail
    | EPlus e => repeat_eval false (eval e) (limit_of e) (ty_of e) (times_of e (ty_of e)) ctx
    | EStar e => repeat_eval true (eval e) (limit_of e) (ty_of e) (times_of e (ty_of e)) ctx
    | EMod e f => mod_eval (eval e) (eval f) (limit_of e) (ty_of e) (times_of e (ty_of e)) ctx
    (** operator/address_of.hpp 44-53, logical_not.hpp 44-53 *)
    | EAnd e => r <- eval e ctx ;; Ok (ER (ok r) ctx AUnused ctx)
    | ENot e => r <- eval e ctx ;; Ok (ER (negb (ok r)) ctx AUnused ctx)
    (** operator/minus.hpp 44-72 *)
    | EMinus e f =>
        r <- eval e ctx ;;
        if ok r then q <- eval f ctx ;; if negb (ok q) then Ok r else fail else fail
    (** operator/negate.hpp 47-69, attr_cnv/negate.hpp 22-30 *)
    | ENeg e => r <- eval e ctx ;; Ok (ER true (cur r) AUnused (if ok r then cur r else ctx))
    (** operator/mem_ptr.hpp 49-84 *)
    | EMem g e => r <- eval e ctx ;; if ok r then Ok (ER true (cur r) (g (at_ r)) (cur r)) else fail
    (** parser/lim.hpp 61-68 *)
    | ELim _ _ e => r <- eval e ctx ;; Ok (presult (ok r) (cur r) (at_ r))
    | ERepeat count e => rep_eval (eval e) count (limit_of e) (ty_of e) (times_of e (ty_of e)) ctx
    (** directive/omit.hpp 44-72, replace.hpp 46-75, as_tuple.hpp 50-78 *)
    | EOmit e => r <- eval e ctx ;; Ok (if ok r then presult true (cur r) AUnused else presult false ctx AUnused)
    | EReplace v e => r <- eval e ctx ;; Ok (if ok r then presult true (cur r) (ABase v) else presult false ctx (ABase v))
    | EAsTuple e =>
        r <- eval e ctx ;;
        if ok r then Ok (presult true (cur r) (match at_ r with ABase v => ATup [v] | _ => AOther end)) else fail
    end.

  (** parse.hpp 22-34 *)
  Definition parse (e : pexp) : res eres := eval e 0.
End Eval.
