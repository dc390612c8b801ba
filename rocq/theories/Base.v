(** Basic vocabulary: characters, strings and the few functions of the Rust
    standard library the code relies on.

    A Rust [char] is a Unicode scalar value; it is modelled by its code point
    (type [N]).  A Rust [String]/[&str] is modelled by the list of its chars. *)

From Coq Require Export List NArith ZArith Bool Lia Ascii String.
Export ListNotations.
Open Scope N_scope.
Open Scope list_scope.

Notation char := N (only parsing).
Notation str := (list N) (only parsing).

(** Literals: Coq strings are only used to write constants down. *)
Fixpoint lit (s : string) : str :=
  match s with
  | EmptyString => []
  | String a r => N_of_ascii a :: lit r
  end.

Definition str_eqb (a b : str) : bool :=
  (fix go (a b : str) : bool :=
     match a, b with
     | [], [] => true
     | x :: a', y :: b' => N.eqb x y && go a' b'
     | _, _ => false
     end) a b.

Definition is_ascii (c : char) : bool := c <? 128.

(** ASCII letter case. *)
Definition is_upper (c : char) : bool := (65 <=? c) && (c <=? 90).
Definition is_lower (c : char) : bool := (97 <=? c) && (c <=? 122).
Definition is_digit (c : char) : bool := (48 <=? c) && (c <=? 57).
Definition ascii_lower (c : char) : char := if is_upper c then c + 32 else c.
Definition ascii_alnum (c : char) : bool := is_digit c || is_upper c || is_lower c.
Definition ascii_white (c : char) : bool := (c =? 32) || ((9 <=? c) && (c <=? 13)).

(** Functions of the Rust standard library that consult the Unicode tables.
    On ASCII they are modelled exactly (see below); outside ASCII they are a
    parameter of the model, and the theorems hold for every choice of it. *)
Class Runtime := {
  rt_alnum : char -> bool;       (* char::is_alphanumeric outside ASCII *)
  rt_white : char -> bool;       (* char::is_whitespace outside ASCII *)
  rt_lower : str -> str;         (* str::to_lowercase for non-ASCII strings *)
}.

(** char::is_alphanumeric *)
Definition is_alnum `{Runtime} (c : char) : bool :=
  if is_ascii c then ascii_alnum c else rt_alnum c.

(** char::is_whitespace *)
Definition is_whitespace `{Runtime} (c : char) : bool :=
  if is_ascii c then ascii_white c else rt_white c.

(** str::to_lowercase *)
Definition to_lowercase `{Runtime} (s : str) : str :=
  if forallb is_ascii s then map ascii_lower s else rt_lower s.

(** An instance for running examples: nothing outside ASCII is a letter. *)
Definition ascii_runtime : Runtime :=
  {| rt_alnum := fun _ => false; rt_white := fun _ => false; rt_lower := fun s => s |}.

(** Number of bytes of a string in UTF-8, i.e. Rust's [str::len]. *)
Definition utf8_len (c : char) : N :=
  if c <? 128 then 1 else if c <? 2048 then 2 else if c <? 65536 then 3 else 4.
Definition byte_len (s : str) : N := fold_right (fun c n => utf8_len c + n) 0 s.

(** Rust's [str::lines]: split after every line feed, drop an empty last
    piece, strip one carriage return in front of a line feed. *)
Definition strip_cr (s : str) : str :=
  match rev s with
  | c :: r => if c =? 13 then rev r else s
  | [] => s
  end.
Fixpoint split_nl (s : str) (cur : str) : list str :=
  match s with
  | [] => match cur with [] => [] | _ => [rev cur] end
  | c :: r => if c =? 10 then strip_cr (rev cur) :: split_nl r [] else split_nl r (c :: cur)
  end.
Definition lines (s : str) : list str := split_nl s [].

Definition opt_map {A B} (f : A -> B) (o : option A) : option B :=
  match o with Some a => Some (f a) | None => None end.

Definition is_some {A} (o : option A) : bool := match o with Some _ => true | None => false end.

Definition opt_list {A} (o : option A) : list A := match o with Some a => [a] | None => [] end.

Fixpoint starts_with (p s : str) : bool :=
  match p, s with
  | [], _ => true
  | a :: p', b :: s' => N.eqb a b && starts_with p' s'
  | _ :: _, [] => false
  end.

Definition str_concat (l : list str) : str := List.concat l.

(** Rust's [slice::join] *)
Fixpoint join (sep : str) (l : list str) : str :=
  match l with
  | [] => []
  | [a] => a
  | a :: r => a ++ sep ++ join sep r
  end.
