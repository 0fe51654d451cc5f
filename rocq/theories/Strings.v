(** Texts and characters.

    A Rust [&str] is modelled by the list of its Unicode code points.  UTF-8 byte lengths are
    kept where the code (or nom) slices a string by a byte index. *)
From Coq Require Export List NArith ZArith Bool Lia Ascii String.
From Coq Require Export QArith.
Export ListNotations.
Open Scope N_scope.
Open Scope list_scope.

(** [char] of Rust: a code point.  Simplification: any [N], not only scalar values. *)
Notation char := N (only parsing).
(** [&str] / [String] of Rust. *)
Definition str := list char.

(** Rust string literals used in the model: ASCII only. *)
Definition s_ (x : string) : str := List.map N_of_ascii (list_ascii_of_string x).
(** Rust char literals used in the model: ASCII only. *)
Definition c_ (x : ascii) : char := N_of_ascii x.

(** [char::len_utf8] (Rust std). *)
Definition utf8_len (c : char) : nat :=
  if c <? 0x80 then 1%nat
  else if c <? 0x800 then 2%nat
  else if c <? 0x10000 then 3%nat
  else 4%nat.

(** [str::len]: length in bytes (Rust std). *)
Fixpoint blen (i : str) : nat :=
  match i with
  | [] => 0%nat
  | c :: i' => (utf8_len c + blen i')%nat
  end.

(** [(&s[..n], &s[n..])] with a byte index (Rust std): [None] is the panic
    "byte index n is not a char boundary / out of range". *)
Fixpoint split_at (n : nat) (i : str) : option (str * str) :=
  match n with
  | O => Some ([], i)
  | _ =>
      match i with
      | [] => None
      | c :: i' =>
          if Nat.leb (utf8_len c) n then
            match split_at (n - utf8_len c) i' with
            | Some (a, b) => Some (c :: a, b)
            | None => None
            end
          else None
      end
  end.

(** [&str == &str]. *)
Fixpoint str_eqb (a b : str) : bool :=
  match a, b with
  | [], [] => true
  | x :: a', y :: b' => (x =? y) && str_eqb a' b'
  | _, _ => false
  end.

(** [str::contains(char)] (Rust std). *)
Definition contains (cs : str) (c : char) : bool := List.existsb (N.eqb c) cs.

(** [c as u8] (Rust cast: truncation to the low byte). *)
Definition as_u8 (c : char) : N := c mod 256.

(** [char::to_lowercase], restricted to what nom's [compare_no_case] needs: the characters whose
    lowercase is one single ASCII character are the ASCII letters and U+212A KELVIN SIGN (lowercase
    'k').  Simplification: every other character is mapped to itself; the comparison is only made
    against ASCII tags, so the result of the comparison is unaffected (U+0130 lowercases to two
    characters and so never equals a single one). *)
Definition to_lower (c : char) : char :=
  if (65 <=? c) && (c <=? 90) then c + 32
  else if c =? 0x212A then 107
  else c.

(** [nom::character::is_alphabetic(u8)] = ASCII letters. *)
Definition is_alphabetic (b : N) : bool :=
  ((65 <=? b) && (b <=? 90)) || ((97 <=? b) && (b <=? 122)).
(** [nom::character::is_digit(u8)], also [char::is_dec_digit] = [is_ascii_digit] on characters. *)
Definition is_digit (b : N) : bool := (48 <=? b) && (b <=? 57).
(** [AsChar::is_alpha for char] (nom 5: [is_ascii_alphabetic]). *)
Definition char_is_alpha (c : char) : bool := is_alphabetic c.
(** [AsChar::is_dec_digit for char] (nom 5: [is_ascii_digit]). *)
Definition char_is_dec_digit (c : char) : bool := is_digit c.
(** [AsChar::is_alphanum for char] (nom 5). *)
Definition char_is_alphanum (c : char) : bool := char_is_alpha c || char_is_dec_digit c.
(** [char::is_digit(16)] (Rust std): ASCII hexadecimal digits. *)
Definition char_is_hex (c : char) : bool :=
  is_digit c || ((65 <=? c) && (c <=? 70)) || ((97 <=? c) && (c <=? 102)).

(** Value of a digit string, [str::parse::<u64>] before the range check. *)
Definition dval (ds : str) : Z :=
  fold_left (fun acc c => (acc * 10 + (Z.of_N c - 48))%Z) ds 0%Z.
