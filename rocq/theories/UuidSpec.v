(** Specification of the text form of UUIDs: RFC 4122 layout. *)
From Coq Require Import NArith Ascii String.
From Verif Require Import Cpp.
Open Scope char_scope.

(** The hexadecimal digits. *)
Definition lower_hex : list ascii :=
  ["0"; "1"; "2"; "3"; "4"; "5"; "6"; "7"; "8"; "9"; "a"; "b"; "c"; "d"; "e"; "f"].
Definition upper_hex : list ascii := ["A"; "B"; "C"; "D"; "E"; "F"].

(** 36 characters: dashes after 8, 12, 16 and 20 digits, digits from the given set
    elsewhere. *)
Definition layout (digit : ascii -> Prop) (s : list ascii) : Prop :=
  length s = 36%nat /\
  forall i c, nth_error s i = Some c ->
    if in_dec Nat.eq_dec i [8; 13; 18; 23]%nat then c = "-" else digit c.

Definition canonical (s : list ascii) : Prop := layout (fun c => In c lower_hex) s.
Definition acceptable (s : list ascii) : Prop :=
  layout (fun c => In c (lower_hex ++ upper_hex)) s.

(** Lower case of a letter A-F; other characters unchanged. *)
Definition lower (c : ascii) : ascii :=
  if in_dec ascii_dec c upper_hex then ascii_of_N (N_of_ascii c + 32) else c.

(** No NUL character inside. *)
Definition no_nul (s : list ascii) : Prop := ~ In zero s.
