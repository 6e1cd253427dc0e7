(** Model of the changelog scripts, scripts/utils/make_changelog.py and
    scripts/utils/extract_changelog.py.  Texts are lists of characters; only
    ASCII characters are modelled. *)
From Coq Require Import String Ascii List Bool ZArith.
Import ListNotations.
From Verif Require Import Base Dict.
Local Open Scope list_scope.

Definition text : Type := list ascii.
Definition txt (s : string) : text := list_ascii_of_string s.

(** ** Characters *)
Definition code (c : ascii) : Z := Z.of_nat (nat_of_ascii c).
Definition is_digit (c : ascii) : bool := ((48 <=? code c) && (code c <=? 57))%Z.
(** [str.isalpha]. *)
Definition is_alpha (c : ascii) : bool :=
  (((65 <=? code c) && (code c <=? 90)) || ((97 <=? code c) && (code c <=? 122)))%Z.
(** [str.isspace]. *)
Definition is_space (c : ascii) : bool :=
  (((9 <=? code c) && (code c <=? 13)) || ((28 <=? code c) && (code c <=? 32)))%Z.

(** [itertools.dropwhile], [itertools.takewhile]. *)
Fixpoint dropwhile {A} (f : A -> bool) (l : list A) : list A :=
  match l with
  | [] => []
  | x :: l' => if f x then dropwhile f l' else l
  end.
Fixpoint takewhile {A} (f : A -> bool) (l : list A) : list A :=
  match l with
  | [] => []
  | x :: l' => if f x then x :: takewhile f l' else []
  end.

(** [s.split(c)] for one character [c]. *)
Fixpoint split (c : ascii) (s : text) : list text :=
  match s with
  | [] => [[]]
  | x :: s' =>
    if Ascii.eqb x c then [] :: split c s'
    else match split c s' with
         | [] => [[x]]
         | p :: ps => (x :: p) :: ps
         end
  end.
(** [c.join(ps)]. *)
Fixpoint join (c : ascii) (ps : list text) : text :=
  match ps with
  | [] => []
  | [p] => p
  | p :: ps' => p ++ c :: join c ps'
  end.

(** [int(s)] in base ten: spaces around, a sign, digits with single underscores
    between them; [None] is a ValueError. *)
Definition strip (s : text) : text := rev (dropwhile is_space (rev (dropwhile is_space s))).
Fixpoint int_digits (acc : Z) (after_digit : bool) (s : text) : option Z :=
  match s with
  | [] => if after_digit then Some acc else None
  | c :: s' =>
    if is_digit c then int_digits (10 * acc + (code c - 48))%Z true s'
    else if Ascii.eqb c "_" then (if after_digit then int_digits acc false s' else None)
    else None
  end.
Definition py_int (s : text) : option Z :=
  match strip s with
  | [] => None
  | c :: s' =>
    if Ascii.eqb c "-" then option_map Z.opp (int_digits 0 false s')
    else if Ascii.eqb c "+" then int_digits 0 false s'
    else int_digits 0 false (c :: s')
  end.

(** [os.path.splitext(f)[0]] for a file name without directories: the part
    before the last dot, unless only dots come before it. *)
Fixpoint last_dot (s : text) : option (text * text) :=
  match s with
  | [] => None
  | c :: s' =>
    match last_dot s' with
    | Some (a, b) => Some (c :: a, b)
    | None => if Ascii.eqb c "." then Some ([], s') else None
    end
  end.
Definition stem (f : text) : text :=
  match last_dot f with
  | Some (a, _) => if forallb (fun c => Ascii.eqb c ".") a then f else a
  | None => f
  end.

(** ** make_changelog.py *)

(** [_version_compare], lines 75-88. *)
Fixpoint version_compare (u v : list Z) : Z :=
  match u, v with
  | [], [] => 0
  | [], _ :: _ => -1
  | _ :: _, [] => 1
  | i :: u', j :: v' =>
    if Z.eqb i j then version_compare u' v' else if Z.ltb i j then -1 else 1
  end%Z.

(** Version number of a file, lines 105-111; [None] is the branch that logs an
    error and skips the file.  [sep] is one character (the script takes any
    string). *)
Fixpoint all_some {A} (l : list (option A)) : option (list A) :=
  match l with
  | [] => Some []
  | Some x :: l' => option_map (cons x) (all_some l')
  | None :: _ => None
  end.
Definition file_version (sep : ascii) (f : text) : option (list Z) :=
  all_some (map py_int (split sep (dropwhile is_alpha (stem f)))).

(** The dictionary [d] of lines 103-115.  Its keys, the paths of the files, are
    distinct since names in a directory are; a path is represented by the
    name of the file. *)
Fixpoint versions (sep : ascii) (files : list text) : list (text * list Z) :=
  match files with
  | [] => []
  | f :: files' =>
    match file_version sep f with
    | Some v => (f, v) :: versions sep files'
    | None => versions sep files'
    end
  end.

(** [sorted(..., key=_VersionKey, reverse=True)], line 116: python's sort is
    stable also in reverse. *)
Fixpoint insert (x : text * list Z) (l : list (text * list Z)) : list (text * list Z) :=
  match l with
  | [] => [x]
  | y :: l' => if Z.ltb (version_compare (snd x) (snd y)) 0 then y :: insert x l' else x :: l
  end.
Definition sort_newest (l : list (text * list Z)) : list (text * list Z) := fold_right insert [] l.

(** The text written to the output, lines 119-122; the path of a file is
    [relpath/f]. *)
Definition newline : ascii := "010".
Definition changelog (relpath : text) (sep : ascii) (files : list text) : text :=
  join newline
    ((txt "Changelog" ++ newline :: txt "=========" ++ [newline]) ::
     map (fun p => txt ".. mdinclude:: " ++ relpath ++ "/"%char :: fst p) (sort_newest (versions sep files)) ++
     [[]]).

(** ** extract_changelog.py *)

(** Name of the file of a version, lines 52-55. *)
Definition changelog_file (version : text) : text :=
  "v"%char :: takewhile (fun c => Ascii.eqb c "_" || is_digit c)
                (map (fun c => if Ascii.eqb c "." then "_"%char else c) version) ++ txt ".md".

(** What is printed or written, lines 55-67: [dir] gives the lines of the files
    in the directory; a missing file is FileNotFoundError, here OtherError 2. *)
Definition extract (dir : text -> option (list text)) (version : text) : res (list text) :=
  match dir (changelog_file version) with
  | None => Err (OtherError 2)
  | Some [] => Ok []
  | Some (_ :: rows) => Ok rows
  end.
