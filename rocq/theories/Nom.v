(** The nom 5 combinators used by the crate (nom is an external dependency; this file is the
    model of its documented behaviour, see DESIGN.md "Trusted base"). *)
From Verif Require Export Strings.

(** [nom::error::ErrorKind], the kinds that can be produced here. *)
Inductive ekind :=
  KTag | KChar | KOneOf | KNoneOf | KTakeWhile1 | KTakeWhileMN | KDigit | KAlpha | KAlphaNumeric
| KMany0 | KMany1 | KSeparatedList | KMapRes | KEscaped | KFloat | KAlt.

(** [nom::Err<(&str, ErrorKind)>] plus the two outcomes that are not values in Rust:
    [Panic] (the thread panics) and [OutOfFuel] (model artefact, proved unreachable).
    Simplification: the amount in [Incomplete(Needed)] is dropped. *)
Inductive err :=
| Error (pos : str) (k : ekind)
| Failure (pos : str) (k : ekind)
| Incomplete
| Panic
| OutOfFuel.

(** [IResult<&str, A>]. *)
Inductive res (A : Type) :=
| Ok (rest : str) (a : A)
| Err (e : err).
Arguments Ok {A} rest a.
Arguments Err {A} e.

Definition parser (A : Type) := str -> res A.

(** ** nom::sequence *)

(** [nom::sequence::pair] *)
Definition pair {A B} (p : parser A) (q : parser B) : parser (A * B) := fun i =>
  match p i with
  | Ok i1 a => match q i1 with
               | Ok i2 b => Ok i2 (a, b)
               | Err e => Err e
               end
  | Err e => Err e
  end.

(** [nom::combinator::map] *)
Definition map {A B} (p : parser A) (f : A -> B) : parser B := fun i =>
  match p i with
  | Ok r a => Ok r (f a)
  | Err e => Err e
  end.

(** [nom::sequence::preceded] *)
Definition preceded {A B} (p : parser A) (q : parser B) : parser B := map (pair p q) snd.
(** [nom::sequence::terminated] *)
Definition terminated {A B} (p : parser A) (q : parser B) : parser A := map (pair p q) fst.
(** [nom::sequence::delimited] *)
Definition delimited {A B C} (p : parser A) (q : parser B) (r : parser C) : parser B :=
  preceded p (terminated q r).
(** [nom::sequence::separated_pair] *)
Definition separated_pair {A B C} (p : parser A) (s : parser B) (q : parser C) : parser (A * C) :=
  pair p (preceded s q).
(** [nom::sequence::tuple], as right-nested pairs. *)
Definition tuple3 {A B C} (p : parser A) (q : parser B) (r : parser C) : parser (A * (B * C)) :=
  pair p (pair q r).
Definition tuple4 {A B C D} (p : parser A) (q : parser B) (r : parser C) (s : parser D)
  : parser (A * (B * (C * D))) := pair p (tuple3 q r s).
Definition tuple5 {A B C D E} (p : parser A) (q : parser B) (r : parser C) (s : parser D)
  (t : parser E) : parser (A * (B * (C * (D * E)))) := pair p (tuple4 q r s t).

(** ** nom::branch *)

(** [nom::branch::alt]: the next alternative is tried only after a recoverable error; with the
    error type [(I, ErrorKind)] the error of the last alternative is returned. *)
Fixpoint alt {A} (ps : list (parser A)) : parser A := fun i =>
  match ps with
  | [] => Err (Error i KAlt)
  | [p] => p i
  | p :: ps' => match p i with
                | Err (Error _ _) => alt ps' i
                | r => r
                end
  end.

(** ** nom::combinator *)

(** [nom::combinator::opt] *)
Definition opt {A} (p : parser A) : parser (option A) := fun i =>
  match p i with
  | Ok r a => Ok r (Some a)
  | Err (Error _ _) => Ok i None
  | Err e => Err e
  end.

(** [nom::combinator::cut] *)
Definition cut {A} (p : parser A) : parser A := fun i =>
  match p i with
  | Err (Error pos k) => Err (Failure pos k)
  | r => r
  end.

(** [nom::combinator::map_res]: [f] answering [None] is Rust's [Err(_)]. *)
Definition map_res {A B} (p : parser A) (f : A -> option B) : parser B := fun i =>
  match p i with
  | Ok r a => match f a with
              | Some b => Ok r b
              | None => Err (Error i KMapRes)
              end
  | Err e => Err e
  end.

(** [nom::combinator::recognize]: the consumed prefix, computed from the offset of the remainder. *)
Definition recognize {A} (p : parser A) : parser str := fun i =>
  match p i with
  | Ok r _ => Ok r (firstn (List.length i - List.length r) i)
  | Err e => Err e
  end.

(** ** nom::bytes::complete / nom::character::complete *)

Fixpoint strip_prefix (t i : str) : option str :=
  match t, i with
  | [], _ => Some i
  | a :: t', b :: i' => if a =? b then strip_prefix t' i' else None
  | _ :: _, [] => None
  end.

(** [nom::bytes::complete::tag].  A byte prefix that is valid UTF-8 is a character prefix. *)
Definition tag (t : str) : parser str := fun i =>
  match strip_prefix t i with
  | Some r => Ok r t
  | None => Err (Error i KTag)
  end.

(** [nom::CompareResult] *)
Inductive cmp := CmpOk | CmpIncomplete | CmpError.

(** [self.chars().zip(t.chars()).position(|(a, b)| a.to_lowercase().ne(b.to_lowercase()))] is
    [None]. *)
Fixpoint zip_same (i t : str) : bool :=
  match i, t with
  | a :: i', b :: t' => (to_lower a =? to_lower b) && zip_same i' t'
  | _, _ => true
  end.

(** [<&str as Compare<&str>>::compare_no_case] *)
Definition compare_no_case (i t : str) : cmp :=
  if zip_same i t then
    if Nat.leb (blen t) (blen i) then CmpOk else CmpIncomplete
  else CmpError.

(** [nom::bytes::complete::tag_no_case]: [take_split(tag.len())] slices by bytes. *)
Definition tag_no_case (t : str) : parser str := fun i =>
  match compare_no_case i t with
  | CmpOk => match split_at (blen t) i with
             | Some (a, b) => Ok b a
             | None => Err Panic
             end
  | _ => Err (Error i KTag)
  end.

(** [nom::bytes::streaming::tag_no_case] *)
Definition tag_no_case_streaming (t : str) : parser str := fun i =>
  match compare_no_case i t with
  | CmpOk => match split_at (blen t) i with
             | Some (a, b) => Ok b a
             | None => Err Panic
             end
  | CmpIncomplete => Err Incomplete
  | CmpError => Err (Error i KTag)
  end.

(** [nom::character::complete::char] *)
Definition chr (c : char) : parser char := fun i =>
  match i with
  | x :: r => if x =? c then Ok r c else Err (Error i KChar)
  | [] => Err (Error i KChar)
  end.

(** [nom::character::complete::one_of] *)
Definition one_of (cs : str) : parser char := fun i =>
  match i with
  | x :: r => if contains cs x then Ok r x else Err (Error i KOneOf)
  | [] => Err (Error i KOneOf)
  end.

(** [nom::character::complete::none_of] *)
Definition none_of (cs : str) : parser char := fun i =>
  match i with
  | x :: r => if contains cs x then Err (Error i KNoneOf) else Ok r x
  | [] => Err (Error i KNoneOf)
  end.

(** Longest prefix satisfying a predicate, and the rest. *)
Fixpoint span (f : char -> bool) (i : str) : str * str :=
  match i with
  | c :: i' => if f c then let (a, b) := span f i' in (c :: a, b) else ([], i)
  | [] => ([], [])
  end.

(** [nom::bytes::complete::take_while] *)
Definition take_while (f : char -> bool) : parser str := fun i =>
  let (a, b) := span f i in Ok b a.

(** [split_at_position1_complete]: shared by [take_while1], [digit1], [alpha1], [alphanumeric1]. *)
Definition take1 (k : ekind) (f : char -> bool) : parser str := fun i =>
  match span f i with
  | ([], _) => Err (Error i k)
  | (a, b) => Ok b a
  end.

(** [nom::bytes::complete::take_while1] *)
Definition take_while1 := take1 KTakeWhile1.
(** [nom::character::complete::digit1] *)
Definition digit1 : parser str := take1 KDigit char_is_dec_digit.
(** [nom::character::complete::alpha1] *)
Definition alpha1 : parser str := take1 KAlpha char_is_alpha.
(** [nom::character::complete::alphanumeric1] *)
Definition alphanumeric1 : parser str := take1 KAlphaNumeric char_is_alphanum.

(** Longest prefix of at most [n] characters satisfying a predicate. *)
Fixpoint span_n (n : nat) (f : char -> bool) (i : str) : str * str :=
  match n, i with
  | S n', c :: i' => if f c then let (a, b) := span_n n' f i' in (c :: a, b) else ([], i)
  | _, _ => ([], i)
  end.

(** [nom::bytes::complete::take_while_m_n], used by the crate with [m = n = 1], and with
    [m = n = 2] on ASCII hexadecimal digits.  nom compares a byte position against [m]; in these two
    uses that agrees with counting characters. *)
Definition take_while_m_n (m n : nat) (f : char -> bool) : parser str := fun i =>
  let (a, b) := span_n n f i in
  if Nat.leb m (List.length a) then Ok b a else Err (Error i KTakeWhileMN).

(** [nom::bytes::complete::escaped]; [i0] is the whole input (used for the errors and for the
    consumed prefix), [n] the loop fuel. *)
Fixpoint escaped_loop {A B} (n : nat) (normal : parser A) (ctrl : char) (escapable : parser B)
  (i0 i : str) : res str :=
  match n with
  | O => Err OutOfFuel
  | S n' =>
      match i with
      | [] => Ok [] i0
      | c :: i1 =>
          match normal i with
          | Ok i2 _ => match i2 with
                       | [] => Ok [] i0
                       | _ => escaped_loop n' normal ctrl escapable i0 i2
                       end
          | Err (Error _ _) =>
              if c =? ctrl then
                match i1 with
                | [] => Err (Error i0 KEscaped)
                | _ => match escapable i1 with
                       | Ok i2 _ => match i2 with
                                    | [] => Ok [] i0
                                    | _ => escaped_loop n' normal ctrl escapable i0 i2
                                    end
                       | Err e => Err e
                       end
                end
              else if Nat.eqb (List.length i0) (List.length i) then Err (Error i0 KEscaped)
              else Ok i (firstn (List.length i0 - List.length i) i0)
          | Err e => Err e
          end
      end
  end.
Definition escaped {A B} (normal : parser A) (ctrl : char) (escapable : parser B) : parser str :=
  fun i => escaped_loop (S (List.length i)) normal ctrl escapable i i.

(** ** nom::multi *)

(** [nom::multi::many0]; the loop fuel [length i + 1] is enough because an iteration that consumes
    nothing is an error. *)
Fixpoint many0_loop {A} (n : nat) (p : parser A) (i : str) : res (list A) :=
  match n with
  | O => Err OutOfFuel
  | S n' =>
      match p i with
      | Err (Error _ _) => Ok i []
      | Err e => Err e
      | Ok i1 a =>
          if str_eqb i1 i then Err (Error i KMany0)
          else match many0_loop n' p i1 with
               | Ok r l => Ok r (a :: l)
               | Err e => Err e
               end
      end
  end.
Definition many0 {A} (p : parser A) : parser (list A) :=
  fun i => many0_loop (S (List.length i)) p i.

(** the loop of [nom::multi::many1] after the first element *)
Fixpoint many1_loop {A} (n : nat) (p : parser A) (i : str) : res (list A) :=
  match n with
  | O => Err OutOfFuel
  | S n' =>
      match p i with
      | Err (Error _ _) => Ok i []
      | Err e => Err e
      | Ok i1 a =>
          if str_eqb i1 i then Err (Error i KMany1)
          else match many1_loop n' p i1 with
               | Ok r l => Ok r (a :: l)
               | Err e => Err e
               end
      end
  end.
(** [nom::multi::many1]: the first element may be empty, later ones may not. *)
Definition many1 {A} (p : parser A) : parser (list A) := fun i =>
  match p i with
  | Err e => Err e
  | Ok i1 a => match many1_loop (S (List.length i1)) p i1 with
               | Ok r l => Ok r (a :: l)
               | Err e => Err e
               end
  end.

(** the loop of [separated_list] / [separated_nonempty_list] after the first element: an empty
    separator is an error. *)
Fixpoint sep_loop {A B} (n : nat) (sep : parser B) (p : parser A) (i : str) : res (list A) :=
  match n with
  | O => Err OutOfFuel
  | S n' =>
      match sep i with
      | Err (Error _ _) => Ok i []
      | Err e => Err e
      | Ok i1 _ =>
          if str_eqb i1 i then Err (Error i1 KSeparatedList)
          else match p i1 with
               | Err (Error _ _) => Ok i []
               | Err e => Err e
               | Ok i2 a =>
                   if str_eqb i2 i then Err (Error i2 KSeparatedList)
                   else match sep_loop n' sep p i2 with
                        | Ok r l => Ok r (a :: l)
                        | Err e => Err e
                        end
               end
      end
  end.

(** [nom::multi::separated_list] *)
Definition separated_list {A B} (sep : parser B) (p : parser A) : parser (list A) := fun i =>
  match p i with
  | Err (Error _ _) => Ok i []
  | Err e => Err e
  | Ok i1 a =>
      if str_eqb i1 i then Err (Error i1 KSeparatedList)
      else match sep_loop (S (List.length i1)) sep p i1 with
           | Ok r l => Ok r (a :: l)
           | Err e => Err e
           end
  end.

(** [nom::multi::separated_nonempty_list] *)
Definition separated_nonempty_list {A B} (sep : parser B) (p : parser A) : parser (list A) :=
  fun i =>
  match p i with
  | Err e => Err e
  | Ok i1 a =>
      if str_eqb i1 i then Err (Error i1 KSeparatedList)
      else match sep_loop (S (List.length i1)) sep p i1 with
           | Ok r l => Ok r (a :: l)
           | Err e => Err e
           end
  end.

(** ** Recursion

    Rust's recursive functions [f] are written in the model as [fixp body] where [body f] is the
    Rust body.  [fixp] unrolls the body [length i + 1] times; [LNom.v] proves [fixp body i = body
    (fixp body) i] for every body that recurses only on shorter text. *)
Fixpoint iter {A} (n : nat) (body : parser A -> parser A) : parser A :=
  match n with
  | O => fun _ => Err OutOfFuel
  | S n' => fun i => body (iter n' body) i
  end.
Definition fixp {A} (body : parser A -> parser A) : parser A :=
  fun i => iter (S (List.length i)) body i.
