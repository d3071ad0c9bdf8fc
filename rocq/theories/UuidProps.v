(** Theorems of uuids and of hashes of sequences. *)
From Coq Require Import List Arith ZArith Bool.
From Verif Require Import Base BitModel SearchSpec OrderSpec MutSpec NumModel ShaSpec MdSpec CharSpec StrSpec BstrModel BstrSpec.
From Verif Require Import UuidModel UuidSpec UuidProof UuidProof2.
Import ListNotations.
Open Scope Z_scope.

(** What is missing for the full claim: the text must be the whole range.  Characters after a
    complete text are not looked at. *)
Theorem make_uuid_partial : forall (d : nat) (s : list Z) (first last : nat),
  valid s first last -> (depth_bound 22 <= d)%nat ->
  exists x, make_uuid d s first last = Ok x /\
    forall u, x = Done u <-> exists t rest, slice s first last = t ++ rest /\ denotes t u.
Proof. exact make_uuid_lemma. Qed.
Print Assumptions make_uuid_partial.

Example make_uuid_example :
  let t := [123; 54; 66; 97; 55; 98; 56; 49; 48; 45; 57; 100; 97; 100; 45; 49; 49; 100; 49; 45; 56; 48; 98; 52; 45;
            48; 48; 99; 48; 52; 102; 100; 52; 51; 48; 99; 56; 125] in
  make_uuid 12 t 0 38 = Ok (Done uuid_dns) /\ make_uuid 12 t 0 37 = Ok (Throw Text_ends) /\
  make_uuid 12 t 1 37 = Ok (Done uuid_dns) /\ make_uuid 12 t 2 37 = Ok (Throw Not_a_digit).
Proof. repeat split; vm_compute; reflexivity. Qed.

Theorem make_uuid_refuted :
  exists s u, make_uuid 12 s 0 (length s) = Ok (Done u) /\ forall v, ~ denotes s v.
Proof. exact make_uuid_trailing. Qed.
Print Assumptions make_uuid_refuted.

Theorem make_uuid_cstr_partial : forall (d : nat) (m : list Z) (p : nat) (xs : list Z),
  cstr m p xs -> (depth_bound (length xs) <= d)%nat -> (depth_bound 22 <= d)%nat ->
  exists x, make_uuid_cstr d m p = Ok x /\
    forall u, x = Done u <-> exists t rest, xs = t ++ rest /\ denotes t u.
Proof. exact make_uuid_cstr_lemma. Qed.
Print Assumptions make_uuid_cstr_partial.

Example make_uuid_cstr_example :
  make_uuid_cstr 20 ([1] ++ repeat 70 32 ++ [0; 9]) 1 = Ok (Done (repeat 255 16)) /\
  cstr ([1] ++ repeat 70 32 ++ [0; 9]) 1 (repeat 70 32).
Proof.
  split; [vm_compute; reflexivity|]. split; [|split; [reflexivity|]].
  - intros i x. do 32 (destruct i as [|i]; [intros H; exact H|]). destruct i; discriminate.
  - cbn. intuition discriminate.
Qed.

Theorem uuid_to_string_correct : forall u : list Z, is_uuid u ->
  uuid_to_string u = Ok (image 36 (canonical u), 36%nat) /\ denotes (canonical u) u.
Proof. exact (fun u U => conj (to_string_lemma u U) (canonical_denotes u U)). Qed.
Print Assumptions uuid_to_string_correct.

Theorem uuid_round_trip : forall (d : nat) (u : list Z), is_uuid u -> (depth_bound 22 <= d)%nat ->
  exists s n, uuid_to_string u = Ok (s, n) /\ make_uuid d s 0 n = Ok (Done u).
Proof. exact round_trip_lemma. Qed.
Print Assumptions uuid_round_trip.

Theorem denotes_a_uuid : forall t u : list Z, denotes t u -> is_uuid u.
Proof. exact denotes_uuid. Qed.
Print Assumptions denotes_a_uuid.

Example uuid_to_string_example :
  uuid_to_string uuid_x500 = Ok ([54; 98; 97; 55; 98; 56; 49; 52; 45; 57; 100; 97; 100; 45; 49; 49; 100; 49; 45; 56; 48; 98; 52; 45;
            48; 48; 99; 48; 52; 102; 100; 52; 51; 48; 99; 56; 0], 36%nat).
Proof. vm_compute. reflexivity. Qed.

Theorem uuid_compare_correct : forall (c : bool) (d : nat) (u v : list Z),
  is_uuid u -> is_uuid v -> (depth_bound 16 <= d)%nat ->
  uuid_eq c d u v = Ok (number u =? number v) /\ uuid_ne c d u v = Ok (negb (number u =? number v)) /\
  uuid_lt c d u v = Ok (number u <? number v) /\ uuid_gt c d u v = Ok (number v <? number u) /\
  uuid_le c d u v = Ok (number u <=? number v) /\ uuid_ge c d u v = Ok (number v <=? number u) /\
  is_nil u = Ok (number u =? 0) /\ (number u = number v <-> u = v).
Proof. exact uuid_compare_lemma. Qed.
Print Assumptions uuid_compare_correct.

Example uuid_compare_example :
  uuid_lt true 12 uuid_dns uuid_url = Ok true /\ uuid_lt false 12 uuid_url uuid_dns = Ok false /\
  uuid_le true 12 uuid_dns uuid_dns = Ok true /\ is_nil nil_uuid = Ok true /\ is_nil (repeat 0 15 ++ [1]) = Ok false.
Proof. repeat split; vm_compute; reflexivity. Qed.

Theorem uuid_variant_correct : forall u : list Z, is_uuid u -> variant u =
  Ok (match variant_bits u with
      | (false, _, _) => Variant_ncs | (true, false, _) => Variant_rfc_4122
      | (true, true, false) => Variant_microsoft | (true, true, true) => Variant_future end).
Proof. exact variant_lemma. Qed.
Print Assumptions uuid_variant_correct.

Theorem uuid_version_correct : forall u : list Z, is_uuid u -> version u =
  Ok (if (1 <=? version_bits u) && (version_bits u <=? 5) then version_bits u else -1).
Proof. exact version_lemma. Qed.
Print Assumptions uuid_version_correct.

Example uuid_version_example :
  variant uuid_dns = Ok Variant_rfc_4122 /\ version uuid_dns = Ok 1 /\ version (repeat 0x60 16) = Ok (-1).
Proof. repeat split; vm_compute; reflexivity. Qed.

Theorem make_uuid5_correct : forall (md : bool) (r : nat) (ns name : list Z),
  Forall is_byte ns -> Forall is_byte name -> (2 * length (ns ++ name) < r)%nat ->
  make_uuid5 md r ns name = Ok (stamp 5 (sha1_digest (ns ++ name))).
Proof. exact make_uuid5_lemma. Qed.
Print Assumptions make_uuid5_correct.

Theorem make_uuid3_correct : forall (md : bool) (ns name : list Z),
  make_uuid3 md ns name = Ok (stamp 3 (md5_digest (ns ++ name))).
Proof. exact make_uuid3_lemma. Qed.
Print Assumptions make_uuid3_correct.

Theorem name_uuid_facts : forall msg : list Z,
  (let u := stamp 5 (sha1_digest msg) in is_uuid u /\ version u = Ok 5 /\ variant u = Ok Variant_rfc_4122) /\
  (let u := stamp 3 (md5_digest msg) in is_uuid u /\ version u = Ok 3 /\ variant u = Ok Variant_rfc_4122).
Proof. exact stamp_facts_lemma. Qed.
Print Assumptions name_uuid_facts.

(** "www.example.com" in the namespace of domain names *)
Example make_uuid5_example :
  let name := [119; 119; 119; 46; 101; 120; 97; 109; 112; 108; 101; 46; 99; 111; 109] in
  make_uuid5 true 100 uuid_dns name =
    Ok [0x2e; 0xd6; 0x65; 0x7d; 0xe9; 0x27; 0x56; 0x8b; 0x95; 0xe1; 0x26; 0x65; 0xa8; 0xae; 0xa6; 0xa2] /\
  make_uuid3 true uuid_dns name =
    Ok [0x5d; 0xf4; 0x18; 0x81; 0x3a; 0xed; 0x35; 0x15; 0x88; 0xa7; 0x2f; 0x4a; 0x81; 0x4c; 0xf0; 0x9e].
Proof.
  split.
  - rewrite make_uuid5_correct; [vm_compute; reflexivity | repeat (constructor; [now vm_compute |]); constructor ..|].
    now apply Nat.ltb_lt.
  - rewrite make_uuid3_correct. vm_compute. reflexivity.
Qed.

Theorem make_uuid4_correct : forall (G : Type) (gen : G -> Z * G) (g : G),
  (forall g, 0 <= fst (gen g) < 2 ^ 32) ->
  exists v0 v1 v2 v3, fst (draws gen 4 g) = [v0; v1; v2; v3] /\
    let u := stamp 4 (be32 v0 ++ be32 v1 ++ be32 v2 ++ be32 v3) in
    make_uuid4 gen g = Ok u /\ is_uuid u /\ version u = Ok 4 /\ variant u = Ok Variant_rfc_4122.
Proof. exact @make_uuid4_lemma. Qed.
Print Assumptions make_uuid4_correct.

Example make_uuid4_example :
  make_uuid4 (fun g => (g mod 2 ^ 32, g * 69069 + 1)) 0xFFEEDDCC =
    Ok [255; 238; 221; 204; 241; 86; 72; 93; 165; 158; 155; 122; 73; 97; 178; 179].
Proof. vm_compute. reflexivity. Qed.

(** What is missing for the full claim: other strings that name nothing should be rejected; see
    the refutation. *)
Theorem literal_namespace_partial : forall (ct : ity) (d : nat) (s u : list Z),
  letters s -> (depth_bound (length s) <= d)%nat -> (depth_bound 22 <= d)%nat ->
  names s u -> literal_namespace ct d s = Ok (Done u).
Proof. exact literal_namespace_lemma. Qed.
Print Assumptions literal_namespace_partial.

Theorem literal_namespace_rest : forall (ct : ity) (d : nat) (s : list Z),
  letters s -> (depth_bound (length s) <= d)%nat -> (depth_bound 22 <= d)%nat ->
  ~ begins token_dns s -> ~ begins token_url s -> ~ begins token_oid s -> ~ begins token_x500 s ->
  literal_namespace ct d s = make_uuid d s 0 (length s).
Proof. exact literal_rest_lemma. Qed.
Print Assumptions literal_namespace_rest.

Theorem literal_namespace_refuted : forall (ct : ity) (u : list Z),
  literal_namespace ct 12 [] = Ok (Done uuid_dns) /\ literal_namespace ct 12 [117] = Ok (Done uuid_url) /\
  ~ names [] u /\ ~ names [117] u.
Proof. exact literal_bad_lemma. Qed.
Print Assumptions literal_namespace_refuted.

(** "x500", "X500", "DNS", "foo" *)
Example literal_namespace_example :
  literal_namespace (Ity true 0) 12 [120; 53; 48; 48] = Ok (Done uuid_x500) /\ literal_namespace (Ity true 0) 12 [88; 53; 48; 48] = Ok (Done uuid_x500) /\
  literal_namespace (Ity true 0) 12 [68; 78; 83] = Ok (Done uuid_dns) /\ literal_namespace (Ity true 0) 12 [102; 111; 111] = Ok (Throw Not_a_digit).
Proof. repeat split; vm_compute; reflexivity. Qed.

Theorem hash_range_correct : forall (c : bool) (d : nat) (seed : Z) (l : list Z) (first last : nat),
  valid l first last -> (depth_bound (last - first) <= d)%nat -> is_word64 seed ->
  hash_range c d seed l first last = Ok (fold_left combine64 (slice l first last) seed).
Proof. exact hash_range_lemma. Qed.
Print Assumptions hash_range_correct.

Theorem hash_combine_correct : forall (hs : list Z) (seed h : Z), is_word64 seed ->
  hash_combine seed h hs = Ok (fold_left combine64 (h :: hs) seed).
Proof. exact hash_combine_lemma. Qed.
Print Assumptions hash_combine_correct.

Theorem hash_combine_words : forall seed h : Z, is_word64 seed -> is_word64 (combine64 seed h).
Proof. exact combine64_range. Qed.
Print Assumptions hash_combine_words.

Theorem hash_combine_injective : forall seed h1 h2 : Z,
  is_word64 h1 -> is_word64 h2 -> combine64 seed h1 = combine64 seed h2 -> h1 = h2.
Proof. exact combine64_inj. Qed.
Print Assumptions hash_combine_injective.

Theorem hash_range_last : forall (c : bool) (d : nat) (seed : Z) (l1 l2 xs : list Z) (a b : Z),
  is_word64 seed -> is_word64 a -> is_word64 b -> l1 = xs ++ [a] -> l2 = xs ++ [b] ->
  (depth_bound (length l1) <= d)%nat ->
  hash_range c d seed l1 0 (length l1) = hash_range c d seed l2 0 (length l2) -> a = b.
Proof. exact hash_last_lemma. Qed.
Print Assumptions hash_range_last.

Example hash_range_example :
  hash_range true 12 0 [1; 2] 0 2 = hash_values 1 [2] /\ hash_values 1 [2] = Ok 175247769363 /\
  hash_range false 12 0 [2; 1] 0 2 = Ok 175247769427.
Proof. repeat split; vm_compute; reflexivity. Qed.
