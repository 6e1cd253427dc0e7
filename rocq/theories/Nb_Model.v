(** Model of the formatter of notebooks, scripts/utils/yapf_nbformat.py, and of
    the HTML view of a model in notebooks, sample/ipython.py.  Texts are lists of
    characters; only ASCII characters are modelled. *)
From Coq Require Import String Ascii List Bool Arith.
Import ListNotations.
From Verif Require Import Base Dict Changelog_Model.
Local Open Scope list_scope.

(** ** Texts *)

Definition lf : ascii := ascii_of_nat 10.
Definition cr : ascii := ascii_of_nat 13.

(** The line boundaries of [str.splitlines] (ASCII). *)
Definition is_break (c : ascii) : bool :=
  existsb (fun n => Ascii.eqb c (ascii_of_nat n)) [10; 11; 12; 13; 28; 29; 30]%nat.

(** [s.splitlines()]. *)
Fixpoint splitlines (s : text) : list text :=
  match s with
  | [] => []
  | c :: s' =>
    if is_break c then
      match s' with
      | d :: s'' => if Ascii.eqb c cr && Ascii.eqb d lf then [] :: splitlines s'' else [] :: splitlines s'
      | [] => [[]]
      end
    else match splitlines s' with
         | [] => [[c]]
         | p :: ps => (c :: p) :: ps
         end
  end.

(** [s.startswith(p)], with what follows. *)
Fixpoint after (p s : text) : option text :=
  match p, s with
  | [], _ => Some s
  | a :: p', b :: s' => if Ascii.eqb a b then after p' s' else None
  | _ :: _, [] => None
  end.
(** [s.endswith(p)], with what comes before. *)
Definition before (p s : text) : option text := option_map (@rev ascii) (after (rev p) (rev s)).
(** [p in s]. *)
Fixpoint infix (p s : text) : bool :=
  match after p s with
  | Some _ => true
  | None => match s with [] => false | _ :: s' => infix p s' end
  end.
(** [s.split(p, 1)]: the parts around the first [p]. *)
Fixpoint cut (p s : text) : option (text * text) :=
  match after p s with
  | Some r => Some ([], r)
  | None => match s with [] => None | c :: s' => option_map (fun ab => (c :: fst ab, snd ab)) (cut p s') end
  end.
Fixpoint text_eqb (a b : text) : bool :=
  match a, b with
  | [], [] => true
  | x :: a', y :: b' => Ascii.eqb x y && text_eqb a' b'
  | _, _ => false
  end.
(** [str.isspace]. *)
Definition isspace (s : text) : bool := match s with [] => false | _ => forallb is_space s end.

(** ** yapf_nbformat.py *)

(** Lines 20-23: the characters of commands and the two comments. *)
Definition is_bang (c : ascii) : bool := Ascii.eqb c "!" || Ascii.eqb c "%".
Definition escape_comment : text := txt "  # escaped-for-yapf".
Definition pass_comment : text := txt "pass  # ".
Definition not_lf (c : ascii) : bool := negb (Ascii.eqb c lf).

(** [_command_pattern.fullmatch], line 19: [\s*(!|%).*]. *)
Definition is_command (s : text) : bool :=
  match dropwhile is_space s with
  | c :: r => is_bang c && forallb not_lf r
  | [] => false
  end.
(** [_command_escape_pattern.fullmatch], lines 21-22: [\s*pass  # (!|%).*]
    followed by the escape comment. *)
Definition is_escaped (s : text) : bool :=
  match after pass_comment (dropwhile is_space s) with
  | Some (c :: r) =>
    is_bang c && match before escape_comment r with Some m => forallb not_lf m | None => false end
  | _ => false
  end.

(** [_wrap_command_line], lines 78-91. *)
Definition wrap (s : text) : text :=
  if is_command s then
    let indent := takewhile is_space s in
    indent ++ pass_comment ++ skipn (List.length indent) s ++ escape_comment
  else s.
(** [_unwrap_command_line], lines 94-107. *)
Definition unwrap (s : text) : text :=
  if is_escaped s then
    let indent := takewhile is_space s in
    let a := (List.length indent + 8)%nat in
    indent ++ firstn (List.length s - List.length escape_comment - a) (skipn a s)
  else s.

(** A cell of a notebook: [c_code] if its type is "code". *)
Record cell : Type := mkCell { c_code : bool; c_src : text }.

(** Result of [yapf_api.FormatCode]: the new source, or the message of the
    YapfError. *)
Inductive yapf_result : Type :=
| Formatted (s : text)
| YapfError (msg : text).

Section Yapf.
  Context (yapf : text -> yapf_result).

  (** What is given to yapf, line 136. *)
  Definition wrap_lines (src : text) : text := join lf (map wrap (splitlines src)).
  (** Line 144. *)
  Definition unwrap_lines (src : text) : text := join lf (map unwrap (splitlines src)).

  (** The new source of a cell if it is changed, lines 135-152.  The difference
      of lines 148-150 is a generator, so it counts as true. *)
  Definition format_src (tag : bool) (src : text) : option text :=
    let w := wrap_lines src in
    let '(n, changed) :=
      match yapf w with
      | Formatted f => (f, false)
      | YapfError m =>
        let se := txt "# yapf" ++ skipn 9 m in
        if negb (infix se w) && tag then (w ++ lf :: se, true) else (w, false)
      end in
    let n := unwrap_lines n in
    if changed || negb (text_eqb src n) then Some n else None.

  (** The cells that are formatted, lines 129-133. *)
  Definition selected (c : cell) : bool :=
    c_code c && negb (isspace (c_src c)) && negb (infix (txt "# yapf: ignore") (takewhile not_lf (c_src c))).

  Definition format_cell (tag : bool) (c : cell) : option text :=
    if selected c then format_src tag (c_src c) else None.

  (** [format_nb], lines 110-169, for a notebook that can be read: the
      numbers of the cells that are reported, what is written to the file
      ([None]: nothing) and the result. *)
  Definition changes (tag : bool) (cells : list cell) : list nat :=
    map S (filter (fun i => match format_cell tag (nth i cells (mkCell false [])) with Some _ => true | None => false end)
                  (seq 0 (List.length cells))).
  Definition format_cells (tag : bool) (cells : list cell) : list cell :=
    map (fun c => match format_cell tag c with Some n => mkCell (c_code c) n | None => c end) cells.
  Definition format_nb (dry tag : bool) (cells : list cell) : option (list cell) * bool :=
    let diff := changes tag cells in
    match diff with
    | [] => (None, false)
    | _ => (if dry then None else Some (format_cells tag cells), true)
    end.
End Yapf.

(** ** ipython.py *)

Definition tick : ascii := "`"%char.
(** [\w]. *)
Definition is_word (c : ascii) : bool := is_alpha c || is_digit c || Ascii.eqb c "_".
Definition not_tick (c : ascii) : bool := negb (Ascii.eqb c tick).

(** The parts around the last backtick. *)
Fixpoint last_tick (s : text) : option (text * text) :=
  match s with
  | [] => None
  | c :: s' =>
    match last_tick s' with
    | Some (a, b) => Some (c :: a, b)
    | None => if Ascii.eqb c tick then Some ([], s') else None
    end
  end.

(** A match of [_SPHINXCLASS_REGEX] (line 45, [\:\w+\:`.+`]) at the start of a
    text: what [_unwrap_sphinx_inner] (lines 48-49) makes of it, and the rest of
    the text.  [.+] takes as much of the line as it can. *)
Definition role (s : text) : option (text * text) :=
  match s with
  | c :: s1 =>
    if Ascii.eqb c ":" then
      match takewhile is_word s1, dropwhile is_word s1 with
      | _ :: _, c2 :: c3 :: r =>
        if Ascii.eqb c2 ":" && Ascii.eqb c3 tick then
          match last_tick (takewhile not_lf r) with
          | Some ((_ :: _) as a, b) => Some (takewhile not_tick a, b ++ dropwhile not_lf r)
          | _ => None
          end
        else None
      | _, _ => None
      end
    else None
  | [] => None
  end.
(** [re.sub], [_unwrap_sphinx], lines 52-55.  Every step uses up a character, so
    [n] can be the number of characters. *)
Fixpoint sub_roles (n : nat) (s : text) : text :=
  match n with
  | O => s
  | S n =>
    match role s with
    | Some (inner, rest) => inner ++ sub_roles n rest
    | None => match s with [] => [] | c :: s' => c :: sub_roles n s' end
    end
  end.
Definition unwrap_sphinx (s : text) : text := sub_roles (List.length s) s.

(** The loop of [_parse_docs], lines 66-81: [indent] is [None] for infinity,
    [s] the lines of the current item. *)
Fixpoint items (indent : option nat) (s : list text) (lines : list text) : list (list text) :=
  match lines with
  | [] => [s]
  | d :: lines =>
    let k := List.length (takewhile is_space d) in
    if match indent with None => true | Some i => Nat.leb k i end then
      match s with
      | [] => items (Some k) [d] lines
      | _ => s :: items (Some k) [d] lines
      end
    else items indent (s ++ [d]) lines
  end.
Definition join_words (l : list text) : text := join " " (map strip l).
Definition not_empty (s : text) : bool := match s with [] => false | _ => true end.

(** [_parse_docs], lines 58-82. *)
Definition parse_docs (docs : option text) : list text :=
  match docs with
  | None => []
  | Some docs =>
    match cut (txt "Args:") (unwrap_sphinx docs) with
    | None => []
    | Some (_, rest) => map join_words (items None [] (filter not_empty (split lf rest)))
    end
  end.

(** A model: its documentation and [get_params()], where the values are models
    or not.  Classes as values (they have [get_params], too) are not modelled. *)
Inductive model : Type := Model (doc : option text) (params : list (text * option model)).

(** [re.compile("^" + k + r"\W").match], line 105, for [k] without special
    characters. *)
Definition describes (k d : text) : bool :=
  match after k d with Some (c :: _) => negb (is_word c) | _ => false end.

Definition button_open : text := txt "<button type=""button"" class=""collapsible"">".
Definition div_open : text := txt "<div class=""noncollapsible"">".
Definition button_close : text := txt "</button>".
Definition content_open : text := txt "<div class=""content"">".
Definition div_close : text := txt "</div>".

(** The lines added by line 107. *)
Definition labels (docs : list text) (k : text) : list text :=
  match filter (describes k) docs with [] => [k] | d => d end.

(** [_html_model], lines 94-113. *)
Fixpoint html_model (m : model) : text :=
  match m with
  | Model doc params =>
    let docs := parse_docs doc in
    join lf (flat_map (fun kv =>
      let '(k, v) := kv in
      if infix (txt "__") k then []
      else
        match v with
        | Some sub => button_open :: labels docs k ++ [button_close; content_open; html_model sub; div_close]
        | None => div_open :: labels docs k ++ [div_close]
        end) params)
  end.

(** The body of [CollapsibleModelParams(model)], lines 84-91 and 115-121. *)
Definition collapsible (name : text) (m : model) : text := html_model (Model None [(name, Some m)]).
