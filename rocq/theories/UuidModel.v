(** Model of resim/utils/uuid.{hh,cc}, resim/utils/proto/uuid_to_proto.cc and the
    two libuuid functions they call.  Text is a list of characters. *)
From Coq Require Import NArith Ascii.
From Verif Require Import Cpp.
Open Scope N_scope.

(** The id_ member: resim/utils/uuid.hh:21 and 49, an array of 16 bytes. *)
Definition uuid := list N.
Definition uuid_wf (u : uuid) : Prop := length u = 16%nat /\ Forall (fun b => b < 256) u.

(** Text in C++: std::string, which may contain any characters including NUL. *)
Definition text := list ascii.

(** NULL_ID and the default constructor: resim/utils/uuid.cc:16-19. *)
Definition null_uuid : uuid := repeat 0 16.

(** One lowercase hexadecimal digit of printf's %x. *)
Definition hex_digit (n : N) : ascii :=
  ascii_of_N (if n <? 10 then 48 + n else 87 + n).

(** libuuid uuid_unparse_lower: "%02x" for each byte with a dash in front of
    bytes 4, 6, 8 and 10 (libuuid formats the same bytes through the fields
    time_low, time_mid, time_hi_and_version, clock_seq and node). *)
Definition dash_before (i : nat) : bool :=
  match i with 4 | 6 | 8 | 10 => true | _ => false end%nat.
Fixpoint unparse (i : nat) (bytes : list N) : text :=
  match bytes with
  | [] => []
  | b :: bytes' =>
      (if dash_before i then ["-"%char] else []) ++
      hex_digit (b / 16) :: hex_digit (b mod 16) :: unparse (S i) bytes'
  end.

(** UUID::to_string: resim/utils/uuid.cc:35-42. *)
Definition to_string (u : uuid) : text := unparse 0 u.

(** What a callee sees of s.c_str(): the characters before the first NUL. *)
Fixpoint c_str (s : text) : text :=
  match s with
  | [] => []
  | c :: s' => if (N_of_ascii c =? 0) then [] else c :: c_str s'
  end.

(** isxdigit and the digit value used by strtoul base 16. *)
Definition hex_value (c : ascii) : option N :=
  let n := N_of_ascii c in
  if (48 <=? n) && (n <=? 57) then Some (n - 48)
  else if (97 <=? n) && (n <=? 102) then Some (n - 87)
  else if (65 <=? n) && (n <=? 70) then Some (n - 55)
  else None.

(** The checking loop of libuuid uuid_parse: position [i] must be a dash at 8, 13,
    18 and 23 and a hexadecimal digit elsewhere. *)
Definition dash_at (i : nat) : bool :=
  match i with 8 | 13 | 18 | 23 => true | _ => false end%nat.
Fixpoint check_chars (i : nat) (s : text) : bool :=
  match s with
  | [] => true
  | c :: s' =>
      (if dash_at i then Ascii.eqb c "-" else match hex_value c with Some _ => true | None => false end)
      && check_chars (S i) s'
  end.

(** The conversions of libuuid uuid_parse: the digits other than the dashes, two
    per byte, in order (libuuid reads them with strtoul into the same fields and
    packs these big endian). *)
Fixpoint digits (i : nat) (s : text) : list N :=
  match s with
  | [] => []
  | c :: s' =>
      (if dash_at i then []
       else match hex_value c with Some v => [v] | None => [] end) ++ digits (S i) s'
  end.
Fixpoint pair_up (ds : list N) : list N :=
  match ds with
  | a :: b :: ds' => 16 * a + b :: pair_up ds'
  | _ => []
  end.

(** libuuid uuid_parse: exactly 36 characters, the check, the conversion. *)
Definition uuid_parse (s : text) : option uuid :=
  if Nat.eqb (length s) 36 && check_chars 0 s then Some (pair_up (digits 0 s)) else None.

(** UUID::UUID(const std::string &): resim/utils/uuid.cc:23-27. *)
Definition uuid_of_string (s : text) : outcome uuid :=
  match uuid_parse (c_str s) with
  | Some u => Ok u
  | None => Throw
  end.

(** operator==, operator!= and is_null: resim/utils/uuid.cc:44-48.  Comparison of
    std::array element by element. *)
Fixpoint bytes_eqb (a b : list N) : bool :=
  match a, b with
  | [], [] => true
  | x :: a', y :: b' => (x =? y) && bytes_eqb a' b'
  | _, _ => false
  end.
Definition uuid_eqb (a b : uuid) : bool := bytes_eqb a b.
Definition uuid_neqb (a b : uuid) : bool := negb (bytes_eqb a b).
Definition uuid_is_null (a : uuid) : bool := bytes_eqb a null_uuid.

(** std::hash<resim::UUID>: resim/utils/uuid.hh:56-61.  [string_hash] is
    std::hash<std::string>, about which nothing is assumed. *)
Definition uuid_hash (string_hash : text -> N) (u : uuid) : N := string_hash (to_string u).

(** pack and unpack: resim/utils/proto/uuid_to_proto.cc:13-19.  The message has a
    single string field; a message that was never filled holds the empty
    string. *)
Definition pack_uuid (u : uuid) : text := to_string u.
Definition unpack_uuid (msg : text) : outcome uuid := uuid_of_string msg.
