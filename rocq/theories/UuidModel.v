(** Model of sprout/uuid: uuid.hpp, string_generator.hpp, io.hpp (to_string), detail/table.hpp,
    md5_name_generator.hpp, sha1_name_generator.hpp, random_generator.hpp, nil_generator.hpp,
    namespaces.hpp, literals.hpp, hash.hpp; and of sprout/functional/hash/hash_combine.hpp,
    hash_range.hpp.  Nothing is proved in this file.

    A uuid is the list of its 16 elements (uuid.hpp 82).  A character is its code.  Iterators are
    positions of the string.  [d] is the call depth of the algorithms called.  A throw is an
    outcome of its own.  The stream operators (io.hpp 26-117) are not modelled. *)
From Coq Require Import List Arith ZArith Bool.
From Verif Require Import Base BitModel SearchModel OrderModel NumModel MutModel ShaModel MdModel CharModel BstrModel.
Import ListNotations.
Open Scope Z_scope.

(** ** Parsing: string_generator.hpp *)

(** the four throws: 45, 59, 104, 135 *)
Inductive uexn := Text_ends | Not_a_digit | Dash_missing | Brace_open.
Inductive parsed (A : Type) := Done (a : A) | Throw (e : uexn).
Arguments Done {A}. Arguments Throw {A}.
Definition pbind {A B} (m : res (parsed A)) (f : A -> res (parsed B)) : res (parsed B) :=
  x <- m ;; match x with Done a => f a | Throw e => Ok (Throw e) end.
Notation "x <~ m ;; k" := (pbind m (fun x => k)) (at level 61, m at next level, right associativity).

(** detail/table.hpp 20-23 and 29: digits (with the terminator of the string object), the
    characters and the values *)
Definition digits : list Z :=
  [48;49;50;51;52;53;54;55;56;57; 97;98;99;100;101;102; 65;66;67;68;69;70; 0].
Definition dash : Z := 45.
Definition lbrace : Z := 123.
Definition rbrace : Z := 125.
Definition table : list Z := [0;1;2;3;4;5;6;7;8;9;10;11;12;13;14;15;10;11;12;13;14;15].

(** next_char, 31-54: the character and the position behind it *)
Record next_char : Type := NC { nc_c : Z; nc_first : nat }.
Definition make_next (s : list Z) (f l : nat) : res (parsed next_char) :=
  if negb (f =? l)%nat then c <- rd s f ;; Ok (Done (NC c (f + 1))) else Ok (Throw Text_ends).
Definition nc_next (s : list Z) (l : nat) (nc : next_char) : res (parsed next_char) := make_next s (nc_first nc) l.

(** value_at, 56-61 *)
Definition value_at (i : nat) : res (parsed Z) :=
  if (i <? 22)%nat then v <- rd table i ;; Ok (Done v) else Ok (Throw Not_a_digit).
(** get_value, 62-74 *)
Definition get_value (d : nat) (c : Z) : res (parsed Z) :=
  i <- find Z.eqb true d digits 0 22 c ;; value_at (i - 0).
(** 75-90 *)
Definition is_dash (c : Z) : bool := c =? dash.
Definition is_open_brace (c : Z) : bool := c =? lbrace.
Definition is_close_brace (c : Z) : bool := c =? rbrace.
Definition is_close_brace2 (c ob : Z) : bool := is_open_brace ob && is_close_brace c.

Section Parse.
  Variable d : nat.
  Variable s : list Z.
  Variable l : nat.

  (** generate_2, 127-156, with generate_2_1 (97-126), generate_2_2 (92-96) and generate_2_3
      (87-91) inlined; the pack [args] has the bytes read so far and [r] bounds the recursion.
      The order in which the two arguments of generate_2_3 are evaluated is not specified; it
      decides which exception is thrown if both throw. *)
  Definition dashed (n : nat) : bool := ((n =? 6) || (n =? 8) || (n =? 10))%nat.
  Fixpoint generate_2 (r : nat) (nc : next_char) (ob : Z) (has_dashes : bool) (args : list Z)
      : res (parsed (list Z)) :=
    match r with
    | O => Fuel
    | S r =>
        let two nc has_dashes :=
          v <~ get_value d (nc_c nc) ;;
          nc2 <~ nc_next s l nc ;;
          w <~ get_value d (nc_c nc2) ;;
          v4 <- shl false i32 v 4 ;;
          generate_2 r nc2 ob has_dashes (args ++ [conv u8 (Z.lor v4 w)]) in
        let n := length args in
        if (n =? 16)%nat then
          if ob =? 0 then Ok (Done args)
          else
            nc2 <~ nc_next s l nc ;;
            if is_close_brace2 (nc_c nc2) ob then Ok (Done args) else Ok (Throw Brace_open)
        else if (n =? 0)%nat then two nc has_dashes
        else
          nc1 <~ nc_next s l nc ;;
          if dashed n then
            if has_dashes then
              if is_dash (nc_c nc1) then nc2 <~ nc_next s l nc1 ;; two nc2 has_dashes
              else Ok (Throw Dash_missing)
            else two nc1 has_dashes
          else if (n =? 4)%nat then
            if is_dash (nc_c nc1) then nc2 <~ nc_next s l nc1 ;; two nc2 true
            else two nc1 false
          else two nc1 has_dashes
    end.

  (** generate_1, 157-164: 17 calls of generate_2 *)
  Definition generate_1 (nc : next_char) : res (parsed (list Z)) :=
    if is_open_brace (nc_c nc) then nc1 <~ nc_next s l nc ;; generate_2 17 nc1 (nc_c nc) false []
    else generate_2 17 nc 0 false [].
End Parse.

(** string_generator::operator() (166-169) and make_uuid (191-195) of [first, last) *)
Definition make_uuid (d : nat) (s : list Z) (first last : nat) : res (parsed (list Z)) :=
  nc <~ make_next s first last ;; generate_1 d s last nc.
(** of a string object, 170-173, and of a pointer to a terminated string, 174-176 *)
Definition make_uuid_cstr (d : nat) (m : list Z) (p : nat) : res (parsed (list Z)) :=
  n <- traits_length d m p ;; make_uuid d m p (p + n).

(** ** Printing: io.hpp 122-166 *)

(** [digits::value[(u[i] >> 4) & 0x0F]] and [digits::value[u[i] & 0x0F]] *)
Definition hi_digit (u : list Z) (i : nat) : res Z :=
  b <- rd u i ;; h <- shr i32 b 4 ;; rd digits (Z.to_nat (Z.land h 15)).
Definition lo_digit (u : list Z) (i : nat) : res Z :=
  b <- rd u i ;; rd digits (Z.to_nat (Z.land b 15)).
(** the arguments of raw_construct in the order written *)
Definition to_string_args (u : list Z) : list (res Z) :=
  [hi_digit u 0; lo_digit u 0; hi_digit u 1; lo_digit u 1; hi_digit u 2; lo_digit u 2; hi_digit u 3; lo_digit u 3;
   Ok dash; hi_digit u 4; lo_digit u 4; hi_digit u 5; lo_digit u 5;
   Ok dash; hi_digit u 6; lo_digit u 6; hi_digit u 7; lo_digit u 7;
   Ok dash; hi_digit u 8; lo_digit u 8; hi_digit u 9; lo_digit u 9;
   Ok dash; hi_digit u 10; lo_digit u 10; hi_digit u 11; lo_digit u 11; hi_digit u 12; lo_digit u 12;
   hi_digit u 13; lo_digit u 13; hi_digit u 14; lo_digit u 14; hi_digit u 15; lo_digit u 15].
Definition uuid_to_string (u : list Z) : res state :=
  raw_construct 36 36 36 (fun i => nth i (to_string_args u) UB).

(** ** uuid.hpp *)

(** detail::is_nil, 29-35; member is_nil, 211-213 *)
Fixpoint is_nil_range (r : nat) (u : list Z) (first last : nat) : res bool :=
  match r with
  | O => Fuel
  | S r => if (first =? last)%nat then Ok true
           else x <- rd u first ;; if x =? 0 then is_nil_range r u (first + 1) last else Ok false
  end.
Definition is_nil (u : list Z) : res bool := is_nil_range 17 u 0 16.

(** 63-68, 214-220 *)
Inductive variant_type := Variant_ncs | Variant_rfc_4122 | Variant_microsoft | Variant_future.
Definition variant (u : list Z) : res variant_type :=
  e <- rd u 8 ;;
  Ok (if Z.land e 0x80 =? 0x00 then Variant_ncs
      else if Z.land e 0xC0 =? 0x80 then Variant_rfc_4122
      else if Z.land e 0xE0 =? 0xC0 then Variant_microsoft
      else Variant_future).
(** 72-79, 221-229; the enumerators are their values *)
Definition version (u : list Z) : res Z :=
  e <- rd u 6 ;;
  Ok (if Z.land e 0xF0 =? 0x10 then 1
      else if Z.land e 0xF0 =? 0x20 then 2
      else if Z.land e 0xF0 =? 0x30 then 3
      else if Z.land e 0xF0 =? 0x40 then 4
      else if Z.land e 0xF0 =? 0x50 then 5
      else -1).

(** 240-263; [c]: the iterators are taken for random-access ones *)
Definition uuid_eq (c : bool) (d : nat) (u v : list Z) : res bool := equal Z.eqb c d u v 0 16 0.
Definition uuid_ne (c : bool) (d : nat) (u v : list Z) : res bool := b <- uuid_eq c d u v ;; Ok (negb b).
Definition uuid_lt (c : bool) (d : nat) (u v : list Z) : res bool :=
  lexicographical_compare Z.ltb Z.ltb c d u v 0 16 0 16.
Definition uuid_gt (c : bool) (d : nat) (u v : list Z) : res bool := uuid_lt c d v u.
Definition uuid_le (c : bool) (d : nat) (u v : list Z) : res bool := b <- uuid_lt c d v u ;; Ok (negb b).
Definition uuid_ge (c : bool) (d : nat) (u v : list Z) : res bool := b <- uuid_lt c d u v ;; Ok (negb b).

(** ** Generators *)

(** nil_generator.hpp 26-29 *)
Definition nil_uuid : list Z := repeat 0 16.

(** sha_to_uuid_1: sha1_name_generator.hpp 30-49 with (0x5F, 0x50), md5_name_generator.hpp 30-49
    with (0x3F, 0x30) *)
Definition digest_to_uuid (am om : Z) (v : list Z) : res (list Z) :=
  v0 <- rd v 0 ;; v1 <- rd v 1 ;; v2 <- rd v 2 ;; v3 <- rd v 3 ;; v4 <- rd v 4 ;; v5 <- rd v 5 ;;
  v6 <- rd v 6 ;; v7 <- rd v 7 ;; v8 <- rd v 8 ;; v9 <- rd v 9 ;; v10 <- rd v 10 ;; v11 <- rd v 11 ;;
  v12 <- rd v 12 ;; v13 <- rd v 13 ;; v14 <- rd v 14 ;; v15 <- rd v 15 ;;
  Ok [v0; v1; v2; v3; v4; v5; conv u8 (Z.lor (Z.land v6 am) om); v7;
      conv u8 (Z.lor (Z.land v8 0xBF) 0x80); v9; v10; v11; v12; v13; v14; v15].

Section Names.
  Variable md : bool.
  Variable r : nat.
  (** the constructors, 54-59: the sum of the namespace *)
  Definition sha1_generator (ns : list Z) : res sha1 := c_process_block md r sha1_new ns.
  Definition md5_generator (ns : list Z) : res md5 := md5_c_process_block md md5_new ns.
  (** operator(), 60-76: [name] is the sequence of the bytes of the name *)
  Definition sha1_name (g : sha1) (name : list Z) : res (list Z) :=
    s <- c_process_block md r g name ;; v <- checksum md s ;; digest_to_uuid 0x5F 0x50 v.
  Definition md5_name (g : md5) (name : list Z) : res (list Z) :=
    s <- md5_c_process_block md g name ;; v <- md5_checksum md s ;; digest_to_uuid 0x3F 0x30 v.
  (** make_uuid5 and make_uuid3 of a namespace and a name, 106-128 *)
  Definition make_uuid5 (ns name : list Z) : res (list Z) := g <- sha1_generator ns ;; sha1_name g name.
  Definition make_uuid3 (ns name : list Z) : res (list Z) := g <- md5_generator ns ;; md5_name g name.
End Names.

(** random_generator.hpp 36-55: random_to_uuid_1 *)
Definition low_byte (v s : Z) : res Z := y <- shr u32 v s ;; Ok (conv u8 (Z.land y 0xFF)).
Definition random_to_uuid_1 (v0 v1 v2 v3 : Z) : res (list Z) :=
  b0 <- low_byte v0 24 ;; b1 <- low_byte v0 16 ;; b2 <- low_byte v0 8 ;; b3 <- low_byte v0 0 ;;
  b4 <- low_byte v1 24 ;; b5 <- low_byte v1 16 ;;
  x6 <- shr u32 v1 8 ;; let b6 := conv u8 (Z.lor (Z.land x6 0x4F) 0x40) in
  b7 <- low_byte v1 0 ;;
  x8 <- shr u32 v2 24 ;; let b8 := conv u8 (Z.lor (Z.land x8 0xBF) 0x80) in
  b9 <- low_byte v2 16 ;; b10 <- low_byte v2 8 ;; b11 <- low_byte v2 0 ;;
  b12 <- low_byte v3 24 ;; b13 <- low_byte v3 16 ;; b14 <- low_byte v3 8 ;; b15 <- low_byte v3 0 ;;
  Ok [b0; b1; b2; b3; b4; b5; b6; b7; b8; b9; b10; b11; b12; b13; b14; b15].
(** 56-71: random_to_uuid; [gen] gives the value of the distribution over std::uint32_t (74-76)
    and the next state of the engine; [cur] is the state [rnd], [args] the pack *)
Fixpoint random_to_uuid {G : Type} (r : nat) (gen : G -> Z * G) (cur : Z * G) (args : list Z) : res (list Z) :=
  match r with
  | O => Fuel
  | S r =>
      if (length args =? 3)%nat then
        v0 <- rd args 0 ;; v1 <- rd args 1 ;; v2 <- rd args 2 ;; random_to_uuid_1 v0 v1 v2 (fst cur)
      else random_to_uuid r gen (gen (snd cur)) (args ++ [fst cur])
  end.
(** 85-92, make_uuid4 *)
Definition make_uuid4 {G : Type} (gen : G -> Z * G) (engine : G) : res (list Z) :=
  random_to_uuid 4 gen (gen engine) [].

(** ** namespaces.hpp 19-67 *)
Definition ns_uuid (b3 : Z) : list Z :=
  [0x6b; 0xa7; 0xb8; b3; 0x9d; 0xad; 0x11; 0xd1; 0x80; 0xb4; 0x00; 0xc0; 0x4f; 0xd4; 0x30; 0xc8].
Definition namespace_dns_uuid : list Z := ns_uuid 0x10.
Definition namespace_url_uuid : list Z := ns_uuid 0x11.
Definition namespace_oid_uuid : list Z := ns_uuid 0x12.
Definition namespace_x500_uuid : list Z := ns_uuid 0x14.

(** ** literals.hpp *)

(** 31-34: the tokens with the terminator of the string object *)
Definition dns_token : list Z := [100; 110; 115; 0].
Definition url_token : list Z := [117; 114; 108; 0].
Definition oid_token : list Z := [111; 105; 100; 0].
Definition x500_token : list Z := [120; 53; 48; 48; 0].
(** operator"" _uuid, 70-87 *)
Definition literal_uuid (d : nat) (s : list Z) : res (parsed (list Z)) := make_uuid d s 0 (length s).
(** range::equal (range/algorithm/equal.hpp 28-32) with nocase_equal_to (ctype/functor.hpp
    423-425): the length of the second range is not looked at *)
Definition range_equal_nocase (ct : ity) (d : nat) (s tok : list Z) : res bool :=
  equal (fun x y => tolower ct x =? tolower ct y) true d s tok 0 (length s) 0.
(** uuid3_impl and uuid5_impl, 36-62: the namespace uuid whose generator is returned *)
Definition literal_namespace (ct : ity) (d : nat) (s : list Z) : res (parsed (list Z)) :=
  b1 <- range_equal_nocase ct d s dns_token ;; if b1 : bool then Ok (Done namespace_dns_uuid) else
  b2 <- range_equal_nocase ct d s url_token ;; if b2 : bool then Ok (Done namespace_url_uuid) else
  b3 <- range_equal_nocase ct d s oid_token ;; if b3 : bool then Ok (Done namespace_oid_uuid) else
  b4 <- range_equal_nocase ct d s x500_token ;; if b4 : bool then Ok (Done namespace_x500_uuid) else
  make_uuid d s 0 (length s).

(** ** hash_combine.hpp 24-28 for one value whose hash is [h]; std::size_t has 64 bits *)
Definition hash_combine1 (seed h : Z) : res Z :=
  a <- shl false u64 seed 6 ;; b <- shr u64 seed 2 ;;
  Ok (Z.lxor seed (add64 (add64 (add64 h 0x9e3779b9) a) b)).
(** 29-33, 38-42: for one or more values *)
Fixpoint hash_combine (seed h : Z) (hs : list Z) : res Z :=
  x <- hash_combine1 seed h ;; match hs with [] => Ok x | h :: hs => hash_combine x h hs end.
(** hash_values.hpp 20-24 *)
Definition hash_values (h : Z) (hs : list Z) : res Z := hash_combine 0 h hs.
(** hash_range.hpp 41-45: [l] has the hashes of the elements; accumulate with an operation that
    is itself an evaluation *)
Definition hash_range (c : bool) (d : nat) (seed : Z) (l : list Z) (first last : nat) : res Z :=
  x <- accumulate c d l first last (Ok seed) (fun a h => y <- a ;; hash_combine1 y h) ;; x.
(** uuid/hash.hpp 20-23 with hash_value.hpp 117-121: the hash of a byte is its value *)
Definition uuid_hash (c : bool) (d : nat) (u : list Z) : res Z := hash_range c d 0 u 0 16.
