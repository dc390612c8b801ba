(** Reading files: /repo/src/environment/fs.rs, the text of hovers
    (environment/symbol.rs:783-808) and the checks of the command line
    (/repo/src/main.rs:50-86).  This file contains no proofs. *)

From Verif Require Import Base Token Scanner Node Parser Assoc Arena Symbol EnvMonad Workspace Resolver
  Backend Suggester.

(** * fs.rs *)

(** A path is the list of its components; the root of an absolute path is a
    component of its own. *)
Definition path : Type := list str.

(** What the file system holds below a directory.  [Unreadable] is a directory
    that [read_dir] gives an error for; [Broken] stands for an entry that the
    iterator gives an error for, in front of the other ones.  Simplification:
    links to directories are directories with the contents of their target, so
    that there are no cyclic ones. *)
Inductive entry :=
| File (name : str)
| Folder (name : str) (contents : listing)
with listing :=
| Unreadable
| Empty
| Broken (rest : listing)
| More (e : entry) (rest : listing).

(** [Path::ends_with]: whole components are compared *)
Definition path_ends_with (p s : path) : bool :=
  (fix go (p s : path) : bool :=
     match s, p with
     | [], _ => true
     | _ :: _, [] => false
     | b :: s, a :: p => str_eqb a b && go p s
     end) (rev p) (rev s).

(** [Path::extension]: the part of the name behind the last dot, unless there is
    nothing in front of that dot *)
Fixpoint before_dot (rev_name ext : str) : option (str * str) :=
  match rev_name with
  | [] => None
  | c :: r => if c =? 46 then Some (r, ext) else before_dot r (c :: ext)
  end.
Definition extension (name : str) : option str :=
  match before_dot (rev name) [] with
  | Some (_ :: _, ext) => Some ext
  | _ => None
  end.

(** fs.rs:26-28 *)
Definition skipped (ignored : list path) (p : path) : bool := existsb (path_ends_with p) ignored.

(** fs.rs:4-41.  The directory itself is [dir], its contents [l].  An error does
    not get out of the function, so the answer is a list. *)
Fixpoint reindex_folder (ignored : list path) (dir : path) (l : listing) : list path :=
  match l with
  | Unreadable | Empty | Broken _ => []
  | More e rest => reindex_entry ignored dir e ++ reindex_folder ignored dir rest
  end
with reindex_entry (ignored : list path) (dir : path) (e : entry) : list path :=
  match e with
  | File name =>
      let p := dir ++ [name] in
      if skipped ignored p then []
      else match extension name with
           | Some ext => if str_eqb ext (lit "php") then [p] else []
           | None => []
           end
  | Folder name contents =>
      let p := dir ++ [name] in
      if skipped ignored p then [] else reindex_folder ignored p contents
  end.

(** fs.rs:47-60.  The lines are numbers of 32 bits that wrap around. *)
Definition two32 : N := 4294967296.
Definition file_read_range (disk : str -> option str) (p : str) (start end_ : N) : str :=
  match disk p with
  | None => lit "Error reading source file"
  | Some content =>
      let count := (end_ + two32 - start + 1) mod two32 in
      List.concat (map (fun l => l ++ [10])
        (firstn (N.to_nat count) (skipn (N.to_nat start) (lines content))))
  end.

Section WithRuntime.
Context `{Runtime} `{Hashing}.

(** symbol.rs:783-808 *)
Definition hover_text (disk : str -> option str) (i : N) : B str :=
  elet d <- e_data i in
  elet anc <- e_ancestors i in
  elet file <- efind (fun a => elet ad <- e_data a in
                               eret (if kind_eqb (y_kind ad) KFile then Some ad else None)) anc in
  eret (match file with
        | Some file =>
            [10] ++ lit "# Documentation" ++ [10] ++ lit "```php" ++ [10] ++ lit "<?php" ++ [10] ++
            file_read_range disk (y_name file) (pos_line (r_start (y_range d))) (pos_line (r_end (y_range d))) ++
            [10] ++ lit "```" ++ [10]
        | None => y_name d
        end).

(** hover.rs:6-49, with the text *)
Definition hover_answer (disk : str -> option str) (order : FileReferenceMap -> FileReferenceMap)
    (p : str) (pos : Position) : B (option (Range * str)) :=
  elet o <- hover order p pos in
  match o with
  | None => eret None
  | Some (r, i) => elet text <- hover_text disk i in eret (Some (r, text))
  end.

(** * main.rs *)

(** What is printed *)
Inductive printed := ParsedOk | Complaint.

(** main.rs:63-70: the argument of [--file] is handed to [source_to_ast]. *)
Definition check_file (fuel : nat) (disk : str -> option str) (file : str) : B (list printed) :=
  elet r <- source_to_ast fuel file in
  eret (match r with inl _ => [ParsedOk] | inr _ => [Complaint] end).

(** main.rs:72-86: so is every path below the argument of [--dir].  [shown] is
    the text of a path. *)
Definition check_dir (fuel : nat) (disk : str -> option str) (shown : path -> str)
    (ignored : list path) (dir : path) (l : listing) : B (list printed) :=
  efold (fun acc p =>
    elet r <- source_to_ast fuel (shown p) in
    eret (match r with inl _ => acc | inr _ => acc ++ [Complaint] end)) []
    (reindex_folder ignored dir l).

End WithRuntime.
