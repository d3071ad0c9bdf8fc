(** What a uuid is and what its texts mean (RFC 4122), independent of the model.  A uuid is a list
    of 16 bytes, a text a list of character codes. *)
From Coq Require Import List Arith ZArith Bool.
From Verif Require Import ShaSpec CharSpec.
Import ListNotations.
Open Scope Z_scope.

Definition is_uuid (u : list Z) : Prop := length u = 16%nat /\ Forall is_byte u.

(** the value of a hexadecimal digit *)
Definition hexval (c : Z) : option Z :=
  if (48 <=? c) && (c <=? 57) then Some (c - 48)
  else if (97 <=? c) && (c <=? 102) then Some (c - 97 + 10)
  else if (65 <=? c) && (c <=? 70) then Some (c - 65 + 10)
  else None.
Definition hex (c : Z) : Prop := hexval c <> None.
Definition hexv (c : Z) : Z := match hexval c with Some v => v | None => 0 end.

(** two digits make a byte *)
Fixpoint pair_up (ds : list Z) : list Z :=
  match ds with
  | a :: b :: t => (16 * hexv a + hexv b) :: pair_up t
  | _ => []
  end.

(** [n] elements from position [i] on *)
Definition part (ds : list Z) (i n : nat) : list Z := firstn n (skipn i ds).
(** 32 digits, plain or in groups of 8, 4, 4, 4 and 12 separated by hyphens *)
Definition grouped (hy : bool) (ds : list Z) : list Z :=
  if hy then part ds 0 8 ++ [45] ++ part ds 8 4 ++ [45] ++ part ds 12 4 ++ [45] ++ part ds 16 4 ++ [45] ++ part ds 20 12
  else ds.
(** the same in braces *)
Definition braced (br : bool) (t : list Z) : list Z := if br then [123] ++ t ++ [125] else t.

(** [t] is one of the four texts of the uuid [u] *)
Definition denotes (t u : list Z) : Prop :=
  exists br hy ds, length ds = 32%nat /\ Forall hex ds /\ t = braced br (grouped hy ds) /\ u = pair_up ds.

(** the text RFC 4122 prescribes: lower case, with hyphens *)
Definition lower_digit (v : Z) : Z := if v <? 10 then 48 + v else 97 + (v - 10).
Definition canonical (u : list Z) : list Z :=
  grouped true (flat_map (fun b => [lower_digit (b / 16); lower_digit (b mod 16)]) u).

(** the 128-bit number *)
Definition number (u : list Z) : Z := fold_left (fun a b => a * 256 + b) u 0.

(** RFC 4122, 4.1.1 and 4.1.3 *)
Definition variant_bits (u : list Z) : bool * bool * bool :=
  let e := nth 8 u 0 in (Z.testbit e 7, Z.testbit e 6, Z.testbit e 5).
Definition version_bits (u : list Z) : Z := nth 6 u 0 / 16.

(** RFC 4122, 4.3 and 4.4: the first 16 bytes with the version number in the four highest bits of
    byte 6 and 10 in the two highest bits of byte 8 *)
Definition stamp (ver : Z) (bs : list Z) : list Z :=
  firstn 6 bs ++ [16 * ver + nth 6 bs 0 mod 16] ++ [nth 7 bs 0] ++ [128 + nth 8 bs 0 mod 64] ++ firstn 7 (skipn 9 bs).

(** the characters of a literal: the terminator is not among them *)
Definition letters (s : list Z) : Prop := Forall character s /\ Forall (fun c => c <> 0) s.
(** letters without case, for the names of the namespaces *)
Definition fold_case (c : Z) : Z := if (65 <=? c) && (c <=? 90) then c + 32 else c.
Definition token_dns : list Z := [100; 110; 115].
Definition token_url : list Z := [117; 114; 108].
Definition token_oid : list Z := [111; 105; 100].
Definition token_x500 : list Z := [120; 53; 48; 48].
Definition uuid_dns : list Z := [0x6b; 0xa7; 0xb8; 0x10; 0x9d; 0xad; 0x11; 0xd1; 0x80; 0xb4; 0x00; 0xc0; 0x4f; 0xd4; 0x30; 0xc8].
Definition uuid_url : list Z := [0x6b; 0xa7; 0xb8; 0x11; 0x9d; 0xad; 0x11; 0xd1; 0x80; 0xb4; 0x00; 0xc0; 0x4f; 0xd4; 0x30; 0xc8].
Definition uuid_oid : list Z := [0x6b; 0xa7; 0xb8; 0x12; 0x9d; 0xad; 0x11; 0xd1; 0x80; 0xb4; 0x00; 0xc0; 0x4f; 0xd4; 0x30; 0xc8].
Definition uuid_x500 : list Z := [0x6b; 0xa7; 0xb8; 0x14; 0x9d; 0xad; 0x11; 0xd1; 0x80; 0xb4; 0x00; 0xc0; 0x4f; 0xd4; 0x30; 0xc8].
(** [s] is [tok] or a beginning of it, up to case *)
Definition begins (tok s : list Z) : Prop := exists n, map fold_case s = firstn n tok.
(** [s] names the namespace [u] *)
Definition names (s u : list Z) : Prop :=
  (map fold_case s = token_dns /\ u = uuid_dns) \/ (map fold_case s = token_url /\ u = uuid_url) \/
  (map fold_case s = token_oid /\ u = uuid_oid) \/ (map fold_case s = token_x500 /\ u = uuid_x500) \/ denotes s u.

(** one step of the hash of a sequence (boost::hash_combine), on 64-bit words *)
Definition combine64 (seed h : Z) : Z :=
  Z.lxor seed ((h + 0x9e3779b9 + seed * 2 ^ 6 + seed / 2 ^ 2) mod 2 ^ 64).
Definition is_word64 (x : Z) : Prop := 0 <= x < 2 ^ 64.
