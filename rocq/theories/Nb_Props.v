(** Properties C79 (formatter of notebooks) and C80 (HTML view of a model). *)
From Coq Require Import String Ascii List Bool Arith Lia.
Import ListNotations.
From Verif Require Import Base Dict PyLemmas Changelog_Model Nb_Model Nb_Proofs.
Local Open Scope list_scope.

(** ** C79 *)

(** A command of a notebook: spaces, then "!" or "%".  An escaped line: spaces,
    "pass  # ", "!" or "%", anything, "  # escaped-for-yapf". *)
Definition bang (c : ascii) : Prop := c = "!"%char \/ c = "%"%char.
Definition command (s : text) : Prop := exists i c r, s = i ++ c :: r /\ blank i /\ bang c.
Definition escaped (s : text) : Prop :=
  exists i c r, s = i ++ txt "pass  # " ++ c :: r ++ txt "  # escaped-for-yapf" /\ blank i /\ bang c.

Lemma bang_spec : forall c, is_bang c = true <-> bang c.
Proof.
  intros c. unfold is_bang, bang. rewrite orb_true_iff. destruct (Ascii.eqb_spec c "!"), (Ascii.eqb_spec c "%"); intuition congruence.
Qed.
Lemma command_spec : forall s, ~ In lf s -> (is_command s = true <-> command s).
Proof.
  intros s N. rewrite is_command_spec. unfold command. split.
  - intros (i & c & r & E & F & B & _). exists i, c, r. rewrite bang_spec in B. auto.
  - intros (i & c & r & E & F & B). exists i, c, r. rewrite bang_spec. repeat split; auto.
    intros I. apply N. rewrite E. apply in_or_app. right. now right.
Qed.
Lemma escaped_spec : forall s, ~ In lf s -> (is_escaped s = true <-> escaped s).
Proof.
  intros s N. rewrite is_escaped_spec. unfold escaped. split.
  - intros (i & c & r & E & F & B & _). exists i, c, r. rewrite bang_spec in B. auto.
  - intros (i & c & r & E & F & B). exists i, c, r. rewrite bang_spec. repeat split; auto.
    intros I. apply N. rewrite E. apply in_or_app. right. apply in_or_app. right. right. apply in_or_app. now left.
Qed.

(** Escaping and unescaping a line gives the line back, unless it looks like an
    escaped line already. *)
Theorem c79_roundtrip : forall s, ~ In lf s -> (unwrap (wrap s) = s <-> ~ escaped s).
Proof.
  intros s N. rewrite <- (escaped_spec s N). split.
  - intros E H. rewrite wrap_other in E by (now apply escaped_not_command). apply is_escaped_spec in H.
    destruct H as (i & c & r & -> & F & B & L). rewrite unwrap_escaped in E by assumption.
    apply (f_equal (@List.length ascii)) in E. rewrite !app_length in E. cbn [List.length] in E. rewrite app_length in E. cbn in E. lia.
  - intros H. destruct (is_command s) eqn:C.
    + apply is_command_spec in C. destruct C as (i & c & r & -> & F & B & L). rewrite wrap_command, unwrap_escaped by assumption. reflexivity.
    + rewrite wrap_other by exact C. apply unwrap_other. destruct (is_escaped s); [congruence|reflexivity].
Qed.
Print Assumptions c79_roundtrip.

(** Commands are hidden from yapf behind a statement with the same indentation
    and a comment that has the command; other lines are given to it as they are. *)
Theorem c79_hidden : forall s, ~ In lf s ->
  ~ command (wrap s) /\
  (forall i c r, s = i ++ c :: r -> blank i -> bang c -> wrap s = i ++ txt "pass  # " ++ c :: r ++ txt "  # escaped-for-yapf") /\
  (~ command s -> wrap s = s).
Proof.
  intros s N. split; [|split].
  - intros C. assert (Nw : ~ In lf (wrap s)).
    { unfold wrap. destruct (is_command s); [|exact N]. rewrite <- (take_drop _ is_space s) in N.
      replace (skipn (List.length (takewhile is_space s)) s) with (dropwhile is_space s) by (rewrite <- (take_drop _ is_space s) at 3; now rewrite skipn_len).
      intros I. apply in_app_or in I. destruct I as [I|I]; [apply N; apply in_or_app; now left|]. apply in_app_or in I. destruct I as [I|I].
      - revert I. vm_compute. intuition discriminate.
      - apply in_app_or in I. destruct I as [I|I]; [apply N; apply in_or_app; now right|]. revert I. vm_compute. intuition discriminate. }
    apply (command_spec _ Nw) in C. rewrite wrap_not_command in C. discriminate.
  - intros i c r E F B. subst s. apply wrap_command; [exact F|now apply bang_spec|]. intros I. apply N. apply in_or_app. right. now right.
  - intros C. apply wrap_other. rewrite <- (command_spec s N) in C. destruct (is_command s); [congruence|reflexivity].
Qed.
Print Assumptions c79_hidden.
Example c79_line_example : command (txt "  !pip install x") /\
  wrap (txt "  !pip install x") = txt "  pass  # !pip install x  # escaped-for-yapf" /\
  unwrap (txt "    pass  # !pip install x  # escaped-for-yapf") = txt "    !pip install x".
Proof.
  split; [|split; reflexivity]. exists (txt "  "), "!"%char, (txt "pip install x"). split; [reflexivity|]. split; [repeat constructor|now left].
Qed.

(** Cells that are no code, cells with spaces only and cells with
    "# yapf: ignore" in the first line stay; no cell changes its type or place. *)
Definition exempt (c : cell) : Prop :=
  c_code c = false \/ (c_src c <> [] /\ blank (c_src c)) \/
  exists a b r, c_src c = a ++ txt "# yapf: ignore" ++ b ++ r /\ ~ In lf a /\ ~ In lf b /\ (r = [] \/ exists r', r = lf :: r').
Theorem c79_untouched : forall yapf dry tag cells cells' flag, format_nb yapf dry tag cells = (Some cells', flag) ->
  map c_code cells' = map c_code cells /\
  forall i c, nth_error cells i = Some c -> exempt c -> nth_error cells' i = Some c.
Proof.
  intros yapf dry tag cells cells' flag E. unfold format_nb in E. destruct (changes yapf tag cells); [discriminate|]. destruct dry; [discriminate|].
  injection E as <- _. unfold format_cells. split.
  - rewrite map_map. apply map_ext. intros c. destruct (format_cell yapf tag c); reflexivity.
  - intros i c Ei X. rewrite nth_error_map, Ei. cbn. replace (format_cell yapf tag c) with (@None text); [reflexivity|].
    symmetry. unfold format_cell. replace (selected c) with false; [reflexivity|]. symmetry. unfold selected.
    destruct X as [-> | [[Ne B] | (a & b & r & Es & Na & Nb & R)]]; [reflexivity| |].
    + unfold isspace. destruct (c_src c) as [|x t] eqn:El; [congruence|]. replace (forallb is_space (x :: t)) with true; [now rewrite andb_false_r|].
      symmetry. apply forallb_forall. unfold blank in B. now rewrite Forall_forall in B.
    + replace (infix (txt "# yapf: ignore") (takewhile not_lf (c_src c))) with true; [now rewrite andb_false_r|]. symmetry. apply infix_spec.
      exists a, b. rewrite Es. assert (F : Forall (fun c => not_lf c = true) (a ++ txt "# yapf: ignore" ++ b)).
      { apply Forall_forall. intros x I. unfold not_lf. destruct (Ascii.eqb_spec x lf) as [->|]; [|reflexivity]. exfalso.
        apply in_app_or in I. destruct I as [I|I]; [tauto|]. apply in_app_or in I. destruct I as [I|I]; [|tauto]. revert I. vm_compute. intuition discriminate. }
      replace (a ++ txt "# yapf: ignore" ++ b ++ r) with ((a ++ txt "# yapf: ignore" ++ b) ++ r) by now rewrite <- !app_assoc.
      destruct R as [-> | [r' ->]]; [rewrite app_nil_r; now apply take_id|]. apply take_app; [exact F|reflexivity].
Qed.
Print Assumptions c79_untouched.

(** ** The new source of a cell *)
Definition one_line (m : text) : Prop := unbroken m.

Lemma tag_line : forall m, unbroken m -> let se := txt "# yapf" ++ skipn 9 m in unbroken se /\ se <> [] /\ wrap se = se /\ unwrap se = se.
Proof.
  intros m U. cbv zeta. split; [|split; [discriminate|]].
  - apply Forall_app. split; [repeat constructor|]. rewrite <- (firstn_skipn 9 m) in U. now apply Forall_app in U.
  - split; [apply wrap_other|apply unwrap_other]; reflexivity.
Qed.
Lemma unwrap_lines_spec : forall s, unwrap_lines s = join lf (map unwrap (splitlines s)).
Proof. reflexivity. Qed.
(** The lines of what is given to yapf with a tag. *)
Lemma tagged_lines : forall src se, unbroken se -> se <> [] ->
  splitlines (wrap_lines src ++ lf :: se) = match splitlines src with [] => [[]] | l => map wrap l end ++ [se].
Proof.
  intros src se U N. unfold wrap_lines. pose proof (splitlines_unbroken src) as F. destruct (splitlines src) as [|p ps] eqn:E.
  - cbn [map join app]. rewrite splitlines_lf, splitlines_line by exact U. destruct se; [congruence|reflexivity].
  - rewrite <- join_snoc by discriminate. apply splitlines_join.
    + apply Forall_app. split; [|constructor; [exact U|constructor]]. apply Forall_map. eapply Forall_impl; [|exact F]. apply wrap_unbroken.
    + rewrite last_last. exact N.
Qed.

(** If yapf formats the cell, the lines of the new source are those of its
    result, commands restored with the indentation they have there. *)
Theorem c79_commands : forall yapf tag src out n, yapf (wrap_lines src) = Formatted out -> splitlines out <> [] ->
  format_src yapf tag src = Some n ->
  List.length (split lf n) = List.length (splitlines out) /\
  forall k l, nth_error (splitlines out) k = Some l ->
    (~ escaped l -> nth_error (split lf n) k = Some l) /\
    forall i c r, l = i ++ txt "pass  # " ++ c :: r ++ txt "  # escaped-for-yapf" -> blank i -> bang c ->
      nth_error (split lf n) k = Some (i ++ c :: r).
Proof.
  intros yapf tag src out n Y Ne E. unfold format_src in E. rewrite Y in E. cbn [orb] in E.
  destruct (negb (text_eqb src (unwrap_lines out))); [|discriminate]. injection E as <-.
  pose proof (splitlines_unbroken out) as U. unfold unwrap_lines.
  assert (Sp : split lf (join lf (map unwrap (splitlines out))) = map unwrap (splitlines out)).
  { apply split_joined; [destruct (splitlines out); [congruence|discriminate]|]. apply Forall_map. eapply Forall_impl; [|exact U].
    intros l H. apply unbroken_lf. now apply unwrap_unbroken. }
  rewrite Sp, map_length. split; [reflexivity|]. intros k l El. rewrite nth_error_map, El. cbn [option_map].
  assert (Nl : ~ In lf l) by (apply unbroken_lf; rewrite Forall_forall in U; apply U; eapply nth_error_In; exact El). split.
  - intros H. f_equal. apply unwrap_other. rewrite <- (escaped_spec l Nl) in H. destruct (is_escaped l); [congruence|reflexivity].
  - intros i c r -> F B. f_equal. apply unwrap_escaped; [exact F|now apply bang_spec|]. intros I. apply Nl.
    apply in_or_app. right. apply in_or_app. right. right. apply in_or_app. now left.
Qed.
Print Assumptions c79_commands.

(** A source as editors leave it: lines with line feeds between them and none at
    the end. *)
Definition tidy (src : text) : Prop := exists ls, src = join lf ls /\ Forall unbroken ls /\ last ls [lf] <> [].
Lemma tidy_lines : forall src, tidy src -> join lf (splitlines src) = src /\ last (splitlines src) [lf] <> [].
Proof. intros src (ls & -> & U & N). now rewrite splitlines_join. Qed.
Lemma last_map : forall (f : text -> text) ls, (forall l, f l = [] -> l = []) -> last ls [lf] <> [] -> last (map f ls) [lf] <> [].
Proof.
  intros f ls Hf. induction ls as [|p ls IH]; intros N; [exact N|]. destruct ls as [|q ls].
  - cbn in *. intros E. apply N. now apply Hf.
  - change (last (map f (p :: q :: ls)) [lf]) with (last (map f (q :: ls)) [lf]). now apply IH.
Qed.
Lemma map_roundtrip : forall ls, Forall unbroken ls -> (forall l, In l ls -> ~ escaped l) -> map unwrap (map wrap ls) = ls.
Proof.
  induction ls as [|l ls IH]; intros Ul Hl; [reflexivity|]. inversion Ul; subst. cbn [map].
  rewrite IH by (assumption || intros; apply Hl; now right). f_equal. apply c79_roundtrip; [now apply unbroken_lf|]. apply Hl. now left.
Qed.
Lemma wrapped_lines : forall src, tidy src -> splitlines (wrap_lines src) = map wrap (splitlines src).
Proof.
  intros src T. unfold wrap_lines. pose proof (splitlines_unbroken src) as U. destruct (tidy_lines src T) as [_ N].
  apply splitlines_join; [apply Forall_map; eapply Forall_impl; [|exact U]; apply wrap_unbroken|]. apply last_map; [apply wrap_empty|exact N].
Qed.

(** If yapf fails and errors are not tagged, a tidy cell stays the same. *)
Theorem c79_error : forall yapf src m, tidy src -> (forall l, In l (splitlines src) -> ~ escaped l) ->
  yapf (wrap_lines src) = YapfError m -> format_src yapf false src = None.
Proof.
  intros yapf src m T Ne Y. unfold format_src. rewrite Y, andb_false_r. cbn [orb].
  assert (E : unwrap_lines (wrap_lines src) = src).
  { unfold unwrap_lines. rewrite wrapped_lines by exact T. rewrite map_roundtrip; [|apply splitlines_unbroken|exact Ne]. apply tidy_lines. exact T. }
  rewrite E. replace (text_eqb src src) with true by (symmetry; now apply text_eqb_spec). reflexivity.
Qed.
Print Assumptions c79_error.

(** Others change though yapf fails: the line end at the end is lost, and a form
    feed, also one in a string literal, becomes a line feed. *)
Theorem c79_error_refuted : exists yapf src src', (forall t, exists m, yapf t = YapfError m) /\
  format_src yapf false (src ++ [lf]) = Some src /\ format_src yapf false (src' ++ [ascii_of_nat 12] ++ src') = Some (src' ++ [lf] ++ src').
Proof.
  exists (fun _ => YapfError (txt "<unknown>:1:1: invalid syntax")), (txt "def f("), (txt "('").
  split; [intros t; eexists; reflexivity|]. split; vm_compute; reflexivity.
Qed.
Print Assumptions c79_error_refuted.

(** With errors tagged a comment with the error is added at the end; a second run
    with the same error changes nothing. *)
Theorem c79_tag : forall yapf src m, tidy src -> (forall l, In l (splitlines src) -> ~ escaped l) -> one_line m ->
  yapf (wrap_lines src) = YapfError m ->
  let se := txt "# yapf" ++ skipn 9 m in
  (forall a b, wrap_lines src <> a ++ se ++ b) ->
  format_src yapf true src = Some (src ++ lf :: se) /\
  (yapf (wrap_lines (src ++ lf :: se)) = YapfError m -> format_src yapf true (src ++ lf :: se) = None).
Proof.
  intros yapf src m T Ne M Y. cbv zeta. intros Ns. destruct (tag_line m M) as (Us & Es & Ws & Uw). set (se := txt "# yapf" ++ skipn 9 m) in *.
  pose proof (splitlines_unbroken src) as U. destruct (tidy_lines src T) as [Js N].
  assert (L : splitlines (src ++ lf :: se) = match splitlines src with [] => [[]] | l => l end ++ [se]).
  { rewrite <- Js at 1. destruct (splitlines src) as [|p ps].
    - cbn [join app]. rewrite splitlines_lf, splitlines_line by exact Us. destruct se; [congruence|reflexivity].
    - rewrite <- join_snoc by discriminate. apply splitlines_join; [apply Forall_app; split; [exact U|constructor; [exact Us|constructor]]|].
      rewrite last_last. exact Es. }
  assert (Jn : forall f : text -> text, f [] = [] -> f se = se -> join lf (map f (match splitlines src with [] => [[]] | l => l end ++ [se])) = join lf (map f (splitlines src)) ++ lf :: se).
  { intros f F0 F1. rewrite map_app. cbn [map]. rewrite F1. destruct (splitlines src) as [|p ps]; [cbn; now rewrite F0|]. now rewrite join_snoc by discriminate. }
  assert (Wt : wrap_lines (src ++ lf :: se) = wrap_lines src ++ lf :: se) by (unfold wrap_lines; rewrite L; now apply Jn).
  assert (Ut : unwrap_lines (wrap_lines src ++ lf :: se) = src ++ lf :: se).
  { unfold unwrap_lines. rewrite tagged_lines by assumption.
    replace (match splitlines src with [] => [[]] | _ => map wrap (splitlines src) end) with (map wrap (match splitlines src with [] => [[]] | l => l end)).
    2: destruct (splitlines src); reflexivity.
    transitivity (join lf (splitlines src) ++ lf :: se); [|now rewrite Js]. rewrite map_app. cbn [map]. rewrite Uw.
    pose proof (map_roundtrip _ U Ne) as Rt. destruct (splitlines src) as [|p ps]; [reflexivity|]. change (map unwrap (wrap p :: map wrap ps)) with (map unwrap (map wrap (p :: ps))). rewrite Rt. now rewrite join_snoc by discriminate. }
  assert (I0 : infix se (wrap_lines src) = false).
  { destruct (infix se (wrap_lines src)) eqn:I; [|reflexivity]. apply infix_spec in I. destruct I as (a & b & I). elim (Ns a b I). }
  split.
  - unfold format_src. rewrite Y. fold se. rewrite I0. cbn [negb andb orb]. now rewrite Ut.
  - intros Y2. unfold format_src. rewrite Y2, Wt. fold se.
    replace (infix se (wrap_lines src ++ lf :: se)) with true.
    2: { symmetry. apply infix_spec. exists (wrap_lines src ++ [lf]), []. now rewrite <- app_assoc, app_nil_r. }
    cbn [negb andb orb]. rewrite Ut. replace (text_eqb _ _) with true by (symmetry; now apply text_eqb_spec). reflexivity.
Qed.
Print Assumptions c79_tag.

(** A second run changes nothing if yapf is stable and no line of its result
    starts with "!" or "%". *)
Theorem c79_stable : forall yapf tag src out ls n, yapf (wrap_lines src) = Formatted out ->
  out = join lf ls ++ [lf] -> Forall unbroken ls -> last ls [] <> [] -> (forall l, In l ls -> ~ command l) ->
  yapf (join lf ls) = Formatted out ->
  format_src yapf tag src = Some n -> format_src yapf tag n = None.
Proof.
  intros yapf tag src out ls n Y Eo U N C Y2 E. unfold format_src in E. rewrite Y in E. cbn [orb] in E.
  destruct (negb (text_eqb src (unwrap_lines out))); [|discriminate]. injection E as <-.
  assert (Nn : ls <> []) by (intros ->; now apply N).
  assert (Lo : splitlines out = ls) by (rewrite Eo; now apply splitlines_end).
  assert (N2 : last ls [lf] <> []).
  { destruct (exists_last Nn) as (ls0 & z & ->). rewrite last_last in *. exact N. }
  unfold unwrap_lines. rewrite Lo.
  assert (Ln : splitlines (join lf (map unwrap ls)) = map unwrap ls).
  { apply splitlines_join; [apply Forall_map; eapply Forall_impl; [|exact U]; apply unwrap_unbroken|]. apply last_map; [apply unwrap_empty|exact N2]. }
  assert (Wn : wrap_lines (join lf (map unwrap ls)) = join lf ls).
  { unfold wrap_lines. rewrite Ln, map_map. f_equal. rewrite <- (map_id ls) at 2. apply map_ext_in. intros l I. apply wrap_unwrap.
    assert (Nl : ~ In lf l) by (apply unbroken_lf; rewrite Forall_forall in U; now apply U).
    specialize (C l I). rewrite <- (command_spec l Nl) in C. destruct (is_command l); [congruence|reflexivity]. }
  unfold format_src. rewrite Wn, Y2. cbn [orb]. unfold unwrap_lines. rewrite Lo.
  replace (text_eqb _ _) with true by (symmetry; now apply text_eqb_spec). reflexivity.
Qed.
Print Assumptions c79_stable.

(** A formatter that puts one space around "=" in one known line. *)
Definition toy (t : text) : yapf_result :=
  if text_eqb t (wrap_lines (txt "x=1" ++ lf :: txt "!ls")) then Formatted (txt "x = 1" ++ lf :: txt "pass  # !ls  # escaped-for-yapf" ++ [lf])
  else if text_eqb t (txt "x = 1" ++ lf :: txt "pass  # !ls  # escaped-for-yapf") then Formatted (t ++ [lf])
  else YapfError (txt "<unknown>:2:7: invalid syntax").
Example c79_example :
  format_src toy false (txt "x=1" ++ lf :: txt "!ls") = Some (txt "x = 1" ++ lf :: txt "!ls") /\
  format_src toy false (txt "x = 1" ++ lf :: txt "!ls") = None /\
  format_src toy true (txt "y=1") = Some (txt "y=1" ++ lf :: txt "# yapf:2:7: invalid syntax") /\
  format_nb toy false false [mkCell false (txt "x=1"); mkCell true (txt "x=1" ++ lf :: txt "!ls")] =
  (Some [mkCell false (txt "x=1"); mkCell true (txt "x = 1" ++ lf :: txt "!ls")], true).
Proof. repeat split; vm_compute; reflexivity. Qed.
Example c79_stable_example :
  let ls := [txt "x = 1"; txt "pass  # !ls  # escaped-for-yapf"] in
  toy (wrap_lines (txt "x=1" ++ lf :: txt "!ls")) = Formatted (join lf ls ++ [lf]) /\ Forall unbroken ls /\ last ls [] <> [] /\
  (forall l, In l ls -> ~ command l) /\ toy (join lf ls) = Formatted (join lf ls ++ [lf]) /\ tidy (txt "y=1").
Proof.
  cbv zeta. split; [vm_compute; reflexivity|]. split; [repeat constructor|]. split; [discriminate|]. split; [|split; [vm_compute; reflexivity|]].
  - intros l [<- | [<- | []]] C; apply command_spec in C; try discriminate; vm_compute; intuition discriminate.
  - exists [txt "y=1"]. split; [reflexivity|]. split; [repeat constructor|discriminate].
Qed.

(** A line of an expression that starts with the operator "%" is taken for a
    command: yapf does not see it. *)
Theorem c79_operator_refuted : wrap_lines (txt "x = (a" ++ lf :: txt "     % b)") = txt "x = (a" ++ lf :: txt "     pass  # % b)  # escaped-for-yapf".
Proof. vm_compute. reflexivity. Qed.
Print Assumptions c79_operator_refuted.

(** ** The file *)
(** The result tells if some cell changes; the file is written then, unless for
    a dry run.  (With tags: for errors of one line.) *)
Lemma format_src_differs : forall yapf tag src n, (forall t m, yapf t = YapfError m -> tag = true -> one_line m) ->
  format_src yapf tag src = Some n -> n <> src.
Proof.
  intros yapf tag src n O E Eq. subst n. unfold format_src in E. destruct (yapf (wrap_lines src)) as [f|m] eqn:Y.
  - cbn [orb] in E. destruct (text_eqb src (unwrap_lines f)) eqn:X; [discriminate|]. cbn in E. injection E as E. rewrite E in X.
    assert (text_eqb src src = true) by now apply text_eqb_spec. congruence.
  - set (se := txt "# yapf" ++ skipn 9 m) in *. destruct (negb (infix se (wrap_lines src)) && tag) eqn:G.
    + apply andb_true_iff in G. destruct G as [G1 ->]. apply negb_true_iff in G1. cbn [orb] in E. injection E as E.
      destruct (tag_line m (O _ _ Y eq_refl)) as (Us & Es & Ws & Uw). fold se in Us, Es, Ws, Uw.
      assert (L : splitlines src = map unwrap (match splitlines src with [] => [[]] | l => map wrap l end) ++ [se]).
      { unfold unwrap_lines in E. rewrite tagged_lines in E by assumption. rewrite map_app in E. cbn [map] in E. rewrite Uw in E.
        rewrite <- E at 1. apply splitlines_join.
        - apply Forall_app. split; [|constructor; [exact Us|constructor]]. apply Forall_map. pose proof (splitlines_unbroken src) as F.
          destruct (splitlines src) as [|p ps]; [repeat constructor|]. apply Forall_map. eapply Forall_impl; [|exact F].
          intros l H. apply unwrap_unbroken. now apply wrap_unbroken.
        - rewrite last_last. exact Es. }
      assert (I : infix se (wrap_lines src) = true); [|congruence]. apply infix_spec. unfold wrap_lines. rewrite L.
      set (pre := map unwrap _). rewrite map_app. cbn [map]. rewrite Ws. destruct (map wrap pre) as [|q qs].
      * exists [], []. cbn. now rewrite app_nil_r.
      * rewrite join_snoc by discriminate. exists (join lf (q :: qs) ++ [lf]), []. now rewrite <- app_assoc, app_nil_r.
    + cbn [orb] in E. destruct (text_eqb src (unwrap_lines (wrap_lines src))) eqn:X; [discriminate|]. cbn in E. injection E as E. rewrite E in X.
      assert (text_eqb src src = true) by now apply text_eqb_spec. congruence.
Qed.
Lemma filter_all_false : forall A (f : A -> bool) l, (forall x, In x l -> f x = false) -> filter f l = [].
Proof.
  induction l as [|x l IH]; intros H; [reflexivity|]. cbn. rewrite (H x) by now left. apply IH. intros y I. apply H. now right.
Qed.
Theorem c79_file : forall yapf dry tag cells, (forall t m, yapf t = YapfError m -> tag = true -> one_line m) ->
  let new := format_cells yapf tag cells in
  (snd (format_nb yapf dry tag cells) = true <-> new <> cells) /\
  fst (format_nb yapf dry tag cells) = if dry then None else if snd (format_nb yapf dry tag cells) then Some new else None.
Proof.
  intros yapf dry tag cells O. cbv zeta. unfold format_nb.
  assert (H : changes yapf tag cells = [] <-> format_cells yapf tag cells = cells).
  { unfold changes, format_cells. split.
    - intros E. apply map_eq_nil in E. rewrite <- (map_id cells) at 2. apply map_ext_in. intros c I.
      destruct (In_nth _ _ (mkCell false []) I) as (i & Hi & Ei).
      destruct (format_cell yapf tag c) as [n|] eqn:F; [|reflexivity]. exfalso.
      assert (In i (filter (fun i => match format_cell yapf tag (nth i cells (mkCell false [])) with Some _ => true | None => false end) (seq 0 (List.length cells)))).
      { apply filter_In. split; [apply in_seq; lia|]. now rewrite Ei, F. }
      rewrite E in *. contradiction.
    - intros E. replace (filter _ _) with (@nil nat); [reflexivity|]. symmetry. apply filter_all_false. intros i Hi. apply in_seq in Hi.
      destruct (format_cell yapf tag (nth i cells (mkCell false []))) as [n|] eqn:F; [|reflexivity]. exfalso.
      assert (D : nth i (format_cells yapf tag cells) (mkCell false []) = mkCell (c_code (nth i cells (mkCell false []))) n).
      { unfold format_cells. rewrite (nth_map_lt _ _ _ (mkCell false [])) by lia. now rewrite F. }
      unfold format_cells in D. rewrite E in D. unfold format_cell in F. destruct (selected _); [|discriminate].
      apply format_src_differs in F; [|exact O]. apply F. rewrite D. reflexivity. }
  destruct (changes yapf tag cells) as [|i l] eqn:E; cbn [fst snd].
  - split; [|now destruct dry]. split; [discriminate|]. intros N. elim N. now apply H.
  - split; [|reflexivity]. split; [|reflexivity]. intros _ Eq. apply H in Eq. discriminate.
Qed.
Print Assumptions c79_file.

(** ** C80 *)

(** *** Roles *)

(** A line with one role: [":w:`c`"] between two texts without backticks. *)
Definition no_tick (s : text) : Prop := ~ In tick s.
(** Letters, digits and underscore; words of them. *)
Definition word_char (c : ascii) : Prop :=
  In c (txt "abcdefghijklmnopqrstuvwxyzABCDEFGHIJKLMNOPQRSTUVWXYZ0123456789_").
Definition word (w : text) : Prop := w <> [] /\ Forall word_char w.
Definition role_line (a w c b : text) : text := a ++ ":"%char :: w ++ ":"%char :: tick :: c ++ tick :: b.
(** [marked l l']: [l'] is the line [l] without the markup of its role. *)
Inductive marked : text -> text -> Prop :=
| M_plain : forall l, no_tick l -> marked l l
| M_role : forall a w c b, no_tick a -> no_tick b -> no_tick c -> c <> [] -> word w -> marked (role_line a w c b) (a ++ c ++ b).

Lemma word_char_iff : forall c, word_char c <-> is_word c = true.
Proof.
  assert (G : forall c, is_word c = if in_dec Ascii.ascii_dec c (txt "abcdefghijklmnopqrstuvwxyzABCDEFGHIJKLMNOPQRSTUVWXYZ0123456789_") then true else false).
  { intros [[] [] [] [] [] [] [] []]; vm_compute; reflexivity. }
  intros c. rewrite G. unfold word_char. destruct (in_dec _ _ _); split; intros H; auto; try contradiction; discriminate.
Qed.
Definition wordb (w : text) : Prop := w <> [] /\ Forall (fun c => is_word c = true) w.
Lemma word_is : forall w, word w <-> wordb w.
Proof.
  intros w. unfold word, wordb. split; intros [N F]; (split; [exact N|]); (eapply Forall_impl; [|exact F]); intros c; apply word_char_iff.
Qed.
Lemma tick_not_lf : tick <> lf. Proof. discriminate. Qed.
Lemma last_tick_spec : forall s a b, last_tick s = Some (a, b) -> s = a ++ tick :: b /\ no_tick b.
Proof.
  induction s as [|c s IH]; intros a b H; [discriminate|]. cbn [last_tick] in H. destruct (last_tick s) as [[a' b']|] eqn:E.
  - injection H as <- <-. destruct (IH _ _ eq_refl) as [-> N]. auto.
  - destruct (Ascii.eqb_spec c tick) as [->|]; [|discriminate]. injection H as <- <-. split; [reflexivity|]. clear IH.
    induction s as [|x s IH]; [intros []|]. cbn [last_tick] in E. destruct (last_tick s) as [[? ?]|]; [discriminate|].
    destruct (Ascii.eqb_spec x tick); [discriminate|]. intros [->|I]; [congruence|]. now apply IH.
Qed.
Lemma last_tick_none : forall s, no_tick s -> last_tick s = None.
Proof.
  induction s as [|c s IH]; intros N; [reflexivity|]. cbn [last_tick]. rewrite IH by (intros I; apply N; now right).
  destruct (Ascii.eqb_spec c tick) as [->|]; [|reflexivity]. exfalso. apply N. now left.
Qed.
Lemma last_tick_app : forall a b, no_tick b -> last_tick (a ++ tick :: b) = Some (a, b).
Proof.
  induction a as [|c a IH]; intros b N.
  - cbn [app last_tick]. rewrite last_tick_none by exact N. reflexivity.
  - cbn [app last_tick]. now rewrite IH.
Qed.
(** A role needs a backtick right after its name, in the same line. *)
Lemma role_needs : forall s x, role s = Some x -> exists w c r, s = ":"%char :: w ++ ":"%char :: tick :: c :: r /\ wordb w.
Proof.
  intros s x H. destruct s as [|a s]; [discriminate|]. cbn [role] in H. destruct (Ascii.eqb_spec a ":") as [->|]; [|discriminate].
  pose proof (take_drop _ is_word s) as T. pose proof (take_all _ is_word s) as F.
  destruct (takewhile is_word s) as [|w0 w] eqn:Ew; [discriminate|]. destruct (dropwhile is_word s) as [|c2 [|c3 r]] eqn:Ed; try discriminate.
  destruct (Ascii.eqb_spec c2 ":") as [->|]; [|discriminate]. destruct (Ascii.eqb_spec c3 tick) as [->|]; [|discriminate]. cbn [andb] in H.
  destruct r as [|c r]; [discriminate|]. exists (w0 :: w), c, r. split; [now rewrite T|]. split; [discriminate|exact F].
Qed.
Lemma word_no : forall w, Forall (fun c => is_word c = true) w -> ~ In ":"%char w /\ no_tick w /\ ~ In lf w.
Proof.
  intros w F. rewrite Forall_forall in F. repeat split; intros I; specialize (F _ I); discriminate F.
Qed.
Lemma role_here : forall w c b rest, wordb w -> no_tick c -> c <> [] -> no_tick b -> ~ In lf c -> ~ In lf b ->
  (rest = [] \/ exists r, rest = lf :: r) ->
  role (":"%char :: w ++ ":"%char :: tick :: c ++ tick :: b ++ rest) = Some (c, b ++ rest).
Proof.
  intros w c b rest [Nw Fw] Nc Ne Nb Lc Lb R. cbn [role]. change (Ascii.eqb ":" ":") with true. cbn iota.
  rewrite take_app, drop_app by (exact Fw || reflexivity). destruct w as [|w0 w]; [congruence|].
  change (Ascii.eqb ":" ":") with true. change (Ascii.eqb tick tick) with true. cbn [andb].
  assert (F : Forall (fun x => not_lf x = true) (c ++ tick :: b)).
  { apply Forall_forall. intros x I. unfold not_lf. destruct (Ascii.eqb_spec x lf) as [->|]; [|reflexivity]. exfalso.
    apply in_app_or in I. destruct I as [I|[I|I]]; [tauto|discriminate|tauto]. }
  replace (c ++ tick :: b ++ rest) with ((c ++ tick :: b) ++ rest) by (rewrite <- app_assoc; reflexivity).
  assert (T : takewhile not_lf ((c ++ tick :: b) ++ rest) = c ++ tick :: b /\ dropwhile not_lf ((c ++ tick :: b) ++ rest) = rest).
  { destruct R as [-> | [r ->]]; [rewrite app_nil_r; split; [now apply take_id|now apply drop_id]|]. split; [apply take_app|apply drop_app]; auto. }
  destruct T as [-> ->]. rewrite last_tick_app by exact Nb. destruct c as [|c0 c]; [congruence|].
  assert (Tk : takewhile not_tick (c0 :: c) = c0 :: c); [|now rewrite Tk].
  apply take_id. apply Forall_forall. intros x I. unfold not_tick. destruct (Ascii.eqb_spec x tick) as [->|]; [elim (Nc I)|reflexivity].
Qed.
(** Without a backtick in reach nothing is a role. *)
Lemma role_far : forall s b, In tick s -> role s = Some b -> exists w r, s = ":"%char :: w ++ ":"%char :: tick :: r /\ wordb w.
Proof. intros s b _ H. apply role_needs in H. destruct H as (w & c & r & E & W). now exists w, (c :: r). Qed.

Lemma sub_plain : forall n a rest, no_tick a -> (forall k, (k < List.length a)%nat -> role (skipn k a ++ rest) = None) ->
  (List.length a <= n)%nat -> sub_roles n (a ++ rest) = a ++ sub_roles (n - List.length a) rest.
Proof.
  induction n as [|n IH]; intros a rest N H Hn.
  - destruct a; [reflexivity|cbn in Hn; lia].
  - destruct a as [|x a]; [cbn [app List.length]; now rewrite Nat.sub_0_r|]. cbn [app List.length] in *. cbn [sub_roles].
    pose proof (H 0%nat ltac:(lia)) as H0. cbn [skipn app] in H0. rewrite H0. f_equal. rewrite IH.
    + reflexivity.
    + intros I. apply N. now right.
    + intros k Hk. apply (H (S k)). lia.
    + lia.
Qed.

(** The text before the role is no role itself. *)
Lemma word_prefix : forall w1 w2 x y r1 r2, Forall (fun c => is_word c = true) w1 -> Forall (fun c => is_word c = true) w2 ->
  is_word x = false -> is_word y = false -> w1 ++ x :: r1 = w2 ++ y :: r2 -> w1 = w2 /\ x :: r1 = y :: r2.
Proof.
  intros w1 w2 x y r1 r2 F1 F2 X Y E. assert (w1 = w2).
  { rewrite <- (take_app _ is_word w1 x r1 F1 X), <- (take_app _ is_word w2 y r2 F2 Y). now rewrite E. }
  subst w2. split; [reflexivity|]. now apply app_inv_head in E.
Qed.
Lemma before_role : forall a w rest k, no_tick a -> wordb w -> (k < List.length a)%nat ->
  role (skipn k a ++ ":"%char :: w ++ ":"%char :: tick :: rest) = None.
Proof.
  intros a w rest k N [Nw Fw] Hk. destruct (role (skipn k a ++ ":"%char :: w ++ ":"%char :: tick :: rest)) as [x|] eqn:E; [|reflexivity]. exfalso.
  apply role_needs in E. destruct E as (w' & c & r & E & Nw' & Fw').
  assert (Ns : no_tick (skipn k a)) by (intros I; apply N; rewrite <- (firstn_skipn k a); apply in_or_app; now right).
  destruct (skipn k a) as [|x0 t] eqn:Es.
  - apply (f_equal (@List.length ascii)) in Es. rewrite skipn_length in Es. cbn in Es. lia.
  - cbn [app] in E. injection E as -> E.
    (* the first backtick of both sides *)
    assert (T : forall l r1, no_tick l -> takewhile not_tick (l ++ tick :: r1) = l).
    { intros l r1 Nl. apply take_app; [|reflexivity]. apply Forall_forall. intros z I. unfold not_tick.
      destruct (Ascii.eqb_spec z tick) as [->|]; [elim (Nl I)|reflexivity]. }
    destruct (word_no w Fw) as (Cw & Tw & _). destruct (word_no w' Fw') as (Cw' & Tw' & _).
    assert (L1 : takewhile not_tick (t ++ ":"%char :: w ++ ":"%char :: tick :: rest) = t ++ ":"%char :: w ++ [":"%char]).
    { replace (t ++ ":"%char :: w ++ ":"%char :: tick :: rest) with ((t ++ ":"%char :: w ++ [":"%char]) ++ tick :: rest).
      - apply T. intros I. apply in_app_or in I. destruct I as [I|[I|I]]; [apply Ns; now right|discriminate|].
        apply in_app_or in I. destruct I as [I|[I|[]]]; [exact (Tw I)|discriminate].
      - rewrite <- app_assoc. cbn [app]. now rewrite <- app_assoc. }
    assert (L2 : takewhile not_tick (w' ++ ":"%char :: tick :: c :: r) = w' ++ [":"%char]).
    { replace (w' ++ ":"%char :: tick :: c :: r) with ((w' ++ [":"%char]) ++ tick :: c :: r) by now rewrite <- app_assoc.
      apply T. intros I. apply in_app_or in I. destruct I as [I|[I|[]]]; [exact (Tw' I)|discriminate]. }
    rewrite E, L2 in L1. replace (t ++ ":"%char :: w ++ [":"%char]) with ((t ++ ":"%char :: w) ++ [":"%char]) in L1 by (now rewrite <- app_assoc).
    apply app_inj_tail in L1. destruct L1 as [L1 _]. apply Cw'. rewrite L1. apply in_or_app. right. now left.
Qed.
Lemma no_role : forall a rest k, no_tick a -> (rest = [] \/ exists r, rest = lf :: r) -> (k < List.length a)%nat ->
  role (skipn k a ++ rest) = None.
Proof.
  intros a rest k N R Hk. destruct (role (skipn k a ++ rest)) as [x|] eqn:E; [|reflexivity]. exfalso.
  apply role_needs in E. destruct E as (w' & c & r & E & Nw' & Fw'). destruct (word_no w' Fw') as (Cw' & Tw' & Lw').
  assert (Ns : no_tick (skipn k a)) by (intros I; apply N; rewrite <- (firstn_skipn k a); apply in_or_app; now right).
  set (s := skipn k a) in *. clearbody s.
  assert (P : exists l, ":"%char :: w' ++ [":"%char; tick] = s ++ l \/ s = (":"%char :: w' ++ [":"%char; tick]) ++ l).
  { assert (G : forall (p s q rest : text), p ++ q = s ++ rest -> exists l, p = s ++ l \/ s = p ++ l).
    { induction p as [|y p IH]; intros s0 q r0 H; [exists s0; now right|]. destruct s0 as [|z s0]; [exists (y :: p); now left|].
      cbn in H. injection H as -> H. destruct (IH _ _ _ H) as [l [->| ->]]; exists l; auto. }
    apply (G _ _ (c :: r) rest). rewrite E. cbn [app]. now rewrite <- app_assoc. }
  destruct P as [l [P|P]].
  - (* the rest starts inside of the role, so with a line feed in it *)
    destruct l as [|y l]; [rewrite app_nil_r in P; apply Ns; rewrite <- P; right; apply in_or_app; right; right; now left|].
    assert (Er : exists r', rest = y :: r').
    { assert (H : s ++ rest = (s ++ y :: l) ++ c :: r) by (rewrite <- P, E; cbn [app]; now rewrite <- app_assoc).
      rewrite <- app_assoc in H. apply app_inv_head in H. rewrite H. eexists. reflexivity. }
    destruct Er as [r' Er]. destruct R as [-> | [r0 ->]]; [discriminate|]. injection Er as <- _.
    assert (I : In lf (":"%char :: w' ++ [":"%char; tick])) by (rewrite P; apply in_or_app; right; now left).
    destruct I as [I|I]; [discriminate|]. apply in_app_or in I. destruct I as [I|[I|[I|[]]]]; [tauto|discriminate|discriminate].
  - apply Ns. rewrite P. right. apply in_or_app. left. apply in_or_app. right. right. now left.
Qed.

Lemma sub_line : forall l l' rest n, marked l l' -> ~ In lf l -> (rest = [] \/ exists r, rest = lf :: r) ->
  (List.length (l ++ rest) <= n)%nat -> exists n', (List.length rest <= n')%nat /\ sub_roles n (l ++ rest) = l' ++ sub_roles n' rest.
Proof.
  intros l l' rest n M L R Hn. rewrite app_length in Hn. destruct M as [l N | a w c b Na Nb Nc Ne W]; [|apply word_is in W].
  - exists (n - List.length l)%nat. split; [lia|]. apply sub_plain; [exact N| |lia]. intros k Hk. now apply no_role.
  - unfold role_line in *. rewrite !app_length in Hn. cbn [List.length] in Hn. rewrite !app_length in Hn. cbn [List.length] in Hn. rewrite !app_length in Hn. cbn [List.length] in Hn.
    replace ((a ++ ":"%char :: w ++ ":"%char :: tick :: c ++ tick :: b) ++ rest) with (a ++ ":"%char :: w ++ ":"%char :: tick :: c ++ tick :: b ++ rest).
    2: { rewrite <- app_assoc. cbn [app]. rewrite <- app_assoc. cbn [app]. now rewrite <- app_assoc. }
    rewrite sub_plain; [|exact Na|intros k Hk; now apply before_role|lia].
    assert (Lc : ~ In lf c) by (intros I; apply L; apply in_or_app; right; right; apply in_or_app; right; right; right; apply in_or_app; now left).
    assert (Lb : ~ In lf b) by (intros I; apply L; apply in_or_app; right; right; apply in_or_app; right; right; right; apply in_or_app; right; now right).
    assert (H1 : (1 <= n - List.length a)%nat) by lia. destruct (n - List.length a)%nat as [|m] eqn:En; [lia|]. cbn [sub_roles].
    rewrite role_here by assumption. rewrite sub_plain; [|exact Nb|intros k Hk; now apply no_role|lia].
    exists (m - List.length b)%nat. split; [lia|]. now rewrite <- !app_assoc.
Qed.

(** If every line of a text has at most one role and no other backticks, the
    roles are replaced by what they mark and everything else stays. *)
Theorem c80_roles : forall ls ls', Forall2 marked ls ls' -> Forall (fun l => ~ In lf l) ls -> ls <> [] ->
  unwrap_sphinx (join lf ls) = join lf ls'.
Proof.
  intros ls ls' M L _. unfold unwrap_sphinx.
  assert (G : forall n, (List.length (join lf ls) <= n)%nat -> sub_roles n (join lf ls) = join lf ls').
  2: now apply G.
  induction M as [|l l' ls ls' Ml M IH]; intros n Hn; [destruct n; reflexivity|]. inversion L as [|? ? Ll Ls]; subst. destruct M as [|q q' ls ls' Mq M].
  - cbn [join] in *. rewrite <- (app_nil_r l) in Hn |- *. destruct (sub_line l l' [] n Ml Ll (or_introl eq_refl) Hn) as (n' & _ & ->).
    destruct n'; cbn; now rewrite app_nil_r.
  - change (join lf (l :: q :: ls)) with (l ++ lf :: join lf (q :: ls)) in *. change (join lf (l' :: q' :: ls')) with (l' ++ lf :: join lf (q' :: ls')).
    destruct (sub_line l l' (lf :: join lf (q :: ls)) n Ml Ll (or_intror (ex_intro _ _ eq_refl)) Hn) as (n' & Hn' & ->).
    f_equal. destruct n' as [|n']; [cbn in Hn'; lia|]. cbn [sub_roles]. change (role (lf :: join lf (q :: ls))) with (@None (text * text)).
    rewrite IH; [reflexivity|exact Ls|]. cbn [List.length] in Hn'. lia.
Qed.
Print Assumptions c80_roles.
Example c80_roles_example : marked (txt "x (:class:`A`): the input") (txt "x (A): the input") /\ marked (txt "y: no role") (txt "y: no role").
Proof.
  split.
  - apply (M_role (txt "x (") (txt "class") (txt "A") (txt "): the input")); try (unfold no_tick; vm_compute; intuition discriminate); try discriminate.
    apply word_is. split; [discriminate|repeat constructor].
  - constructor. unfold no_tick. vm_compute. intuition discriminate.
Qed.

(** Of two roles in one line the second one and the text between them are lost. *)
Theorem c80_two_roles_refuted : unwrap_sphinx (txt "x: a :class:`A` or a :class:`B` here") = txt "x: a A here".
Proof. vm_compute. reflexivity. Qed.
Print Assumptions c80_two_roles_refuted.

(** *** Descriptions of the parameters *)

Definition no_sub (p s : text) : Prop := forall a b, s <> a ++ p ++ b.
Lemma cut_first : forall p a b, (forall a' b', a ++ removelast p <> a' ++ p ++ b') -> p <> [] -> cut p (a ++ p ++ b) = Some (a, b).
Proof.
  intros p a b H Np. induction a as [|c a IH].
  - cbn [app]. destruct (p ++ b) as [|x t] eqn:E; cbn [cut]; rewrite <- E, after_app; reflexivity.
  - cbn [app cut]. destruct (after p (c :: a ++ p ++ b)) as [r|] eqn:E.
    + exfalso. apply after_spec in E. (* p is a prefix of c :: a ++ p ++ b, so of c :: a ++ removelast p *)
      assert (Hl : (List.length p <= List.length ((c :: a) ++ removelast p))%nat).
      { rewrite app_length. rewrite (app_removelast_last "a"%char Np) at 1. rewrite app_length. cbn. lia. }
      assert (P : firstn (List.length p) ((c :: a) ++ removelast p ++ last p "a"%char :: b) = p).
      { replace ((c :: a) ++ removelast p ++ last p "a"%char :: b) with (c :: a ++ p ++ b).
        - rewrite E. apply firstn_len.
        - rewrite (app_removelast_last "a"%char Np) at 1. rewrite <- app_assoc. reflexivity. }
      rewrite app_assoc, firstn_app in P. replace (List.length p - List.length ((c :: a) ++ removelast p))%nat with 0%nat in P by lia.
      cbn [firstn] in P. rewrite app_nil_r in P. apply (H [] (skipn (List.length p) ((c :: a) ++ removelast p))). cbn [app].
      rewrite <- P at 2. symmetry. apply firstn_skipn.
    + rewrite IH; [reflexivity|]. intros a' b' E'. apply (H (c :: a') b'). cbn [app]. now rewrite E'.
Qed.

Lemma no_role_at_all : forall s, no_tick s -> role s = None.
Proof.
  intros s N. destruct (role s) as [x|] eqn:E; [|reflexivity]. apply role_needs in E. destruct E as (w & c & r & -> & _). exfalso. apply N.
  right. apply in_or_app. right. right. now left.
Qed.
Lemma unwrap_plain : forall s, no_tick s -> unwrap_sphinx s = s.
Proof.
  intros s N. unfold unwrap_sphinx. replace s with (s ++ []) at 2 by apply app_nil_r. rewrite sub_plain; [|exact N| |lia].
  - rewrite Nat.sub_diag. cbn. apply app_nil_r.
  - intros k Hk. rewrite app_nil_r. apply no_role_at_all. intros I. apply N. rewrite <- (firstn_skipn k s). apply in_or_app. now right.
Qed.

(** An entry: its first line and those that follow, which are empty or indented
    more. *)
Definition entry : Type := (text * list text)%type.
Definition indent (n : nat) (f : text) : text := repeat " "%char n ++ f.
Definition entry_lines (n : nat) (e : entry) : list text := indent n (fst e) :: snd e.
Definition good_entry (n : nat) (e : entry) : Prop :=
  (exists c r, fst e = c :: r /\ is_space c = false) /\
  Forall (fun l => l = [] \/ (exists b t, l = b ++ t /\ blank b /\ (n < List.length b)%nat)) (snd e).
(** What is shown for it: its lines without spaces around, joined with spaces. *)
Definition shown (e : entry) : text := join " " (map strip (fst e :: filter not_empty (snd e))).

Lemma take_more : forall b t, blank b -> (List.length b <= List.length (takewhile is_space (b ++ t)))%nat.
Proof. induction 1 as [|c b H F IH]; cbn [app List.length takewhile]; [lia|]. rewrite H. cbn. lia. Qed.
Lemma strip_indent : forall n f, strip (indent n f) = strip f.
Proof. intros n f. unfold strip, indent. f_equal. f_equal. f_equal. induction n as [|n IH]; [reflexivity|exact IH]. Qed.
Lemma indent_width : forall n c r, is_space c = false -> List.length (takewhile is_space (indent n (c :: r))) = n.
Proof.
  intros n c r H. unfold indent. rewrite take_app; [apply repeat_length| |exact H]. apply Forall_forall. intros x I. apply repeat_spec in I. now subst.
Qed.
Lemma items_more : forall n s cs rest, s <> [] ->
  Forall (fun l => l = [] \/ (exists b t, l = b ++ t /\ blank b /\ (n < List.length b)%nat)) cs ->
  items (Some n) s (filter not_empty cs ++ rest) = items (Some n) (s ++ filter not_empty cs) rest.
Proof.
  intros n s cs rest Ns F. revert s Ns. induction F as [|l cs H F IH]; intros s Ns; [cbn; now rewrite app_nil_r|].
  destruct H as [-> | (b & t & -> & B & L)]; [cbn [filter not_empty]; now apply IH|].
  cbn [filter]. replace (not_empty (b ++ t)) with true by (destruct b; [cbn in L; lia|reflexivity]). cbn [app items].
  pose proof (take_more b t B) as T. destruct (Nat.leb_spec (List.length (takewhile is_space (b ++ t))) n); [lia|].
  rewrite IH by (destruct s; discriminate). now rewrite <- app_assoc.
Qed.
Lemma items_entries : forall n es s rest, Forall (good_entry n) es -> s <> [] ->
  (rest = [] \/ exists d r, rest = d :: r /\ (List.length (takewhile is_space d) <= n)%nat) ->
  exists more, items (Some n) s (filter not_empty (flat_map (entry_lines n) es) ++ rest) =
    s :: map (fun e => indent n (fst e) :: filter not_empty (snd e)) es ++ more /\ (rest = [] -> more = []).
Proof.
  intros n es s rest F. revert s. induction F as [|e es G F IH]; intros s Ns R.
  - cbn [flat_map filter app map]. destruct R as [-> | (d & r & -> & Hd)].
    + exists []. auto.
    + cbn [items]. replace (List.length (takewhile is_space d) <=? n)%nat with true by (symmetry; now apply Nat.leb_le).
      destruct s as [|s0 s]; [congruence|]. eexists. split; [reflexivity|discriminate].
  - destruct e as [f cs]. destruct G as [(c & t & Ef & Hc) Fc]. cbn [fst snd] in *. subst f.
    cbn [flat_map]. unfold entry_lines at 1. cbn [fst snd app filter].
    replace (not_empty (indent n (c :: t))) with true by (unfold indent; destruct n; reflexivity). cbn [app items].
    rewrite indent_width by exact Hc. rewrite Nat.leb_refl. destruct s as [|s0 s]; [congruence|].
    rewrite filter_app, <- app_assoc. rewrite items_more by (discriminate || exact Fc).
    destruct (IH ([indent n (c :: t)] ++ filter not_empty cs) ltac:(discriminate) R) as (more & E & Hm).
    exists more. split; [|exact Hm]. rewrite E. reflexivity.
Qed.

(** A documentation with "Args:" and entries, all indented by [n] characters,
    possibly followed by lines that are not indented more: the entries are
    found, one by one, in order; nothing else is if nothing follows. *)
Theorem c80_parse : forall head n es rest, es <> [] -> Forall (good_entry n) es ->
  Forall (fun l => ~ In lf l) (flat_map (entry_lines n) es ++ rest) ->
  (rest = [] \/ exists d r, rest = d :: r /\ d <> [] /\ (List.length (takewhile is_space d) <= n)%nat) ->
  (forall a b, head ++ txt "Args" <> a ++ txt "Args:" ++ b) ->
  let docs := head ++ txt "Args:" ++ lf :: join lf (flat_map (entry_lines n) es ++ rest) in
  no_tick docs ->
  exists more, parse_docs (Some docs) = map shown es ++ more /\ (rest = [] -> more = []).
Proof.
  intros head n es rest Ne F L R H. cbv zeta. intros N. unfold parse_docs. rewrite unwrap_plain by exact N.
  rewrite cut_first; [|exact H|discriminate].
  set (ls := flat_map (entry_lines n) es ++ rest) in *.
  assert (Nl : ls <> []) by (destruct es; [congruence|discriminate]).
  replace (split lf (lf :: join lf ls)) with ([] :: ls).
  2: { change (lf :: join lf ls) with ([] ++ lf :: join lf ls). rewrite split_cat by (intros []). now rewrite split_joined. }
  cbn [filter not_empty]. unfold ls. rewrite filter_app. destruct es as [|[f cs] es]; [congruence|]. inversion F as [|? ? G F']; subst.
  destruct G as [(c & t & Ef & Hc) Fc]. cbn [fst snd] in *. subst f. cbn [flat_map]. unfold entry_lines at 1. cbn [fst snd app filter].
  replace (not_empty (indent n (c :: t))) with true by (unfold indent; destruct n; reflexivity). cbn [app items].
  rewrite indent_width by exact Hc. rewrite filter_app, <- app_assoc. rewrite items_more by (discriminate || exact Fc).
  assert (R' : filter not_empty rest = [] \/ exists d r, filter not_empty rest = d :: r /\ (List.length (takewhile is_space d) <= n)%nat).
  { destruct R as [-> | (d & r & -> & Nd & Hd)]; [now left|]. right. exists d, (filter not_empty r). split; [|exact Hd].
    cbn [filter]. destruct d; [congruence|reflexivity]. }
  destruct (items_entries n es ([indent n (c :: t)] ++ filter not_empty cs) (filter not_empty rest) F' ltac:(discriminate) R') as (more & E & Hm).
  rewrite E. exists (map join_words more). split.
  - cbn [map app]. rewrite map_app, map_map.
    assert (J : forall e, join_words (indent n (fst e) :: filter not_empty (snd e)) = shown e).
    { intros e. unfold join_words, shown. cbn [map]. now rewrite strip_indent. }
    apply (f_equal2 (@cons text)); [exact (J (c :: t, cs))|]. apply (f_equal2 (@app text)); [|reflexivity]. apply map_ext. exact J.
  - intros ->. rewrite Hm by reflexivity. reflexivity.
Qed.
Print Assumptions c80_parse.
Definition doc_demo : text := txt "Model" ++ [lf; lf] ++ txt "  Args:" ++ lf :: join lf
  [txt "    fs (int): Sampling"; txt "      frequency"; []; txt "    h: Hop size"; txt "  Attributes:"; txt "    x_: state"].
Example c80_parse_example :
  parse_docs (Some doc_demo) = [txt "fs (int): Sampling frequency"; txt "h: Hop size"; txt "Attributes: x_: state"] /\
  good_entry 4 (txt "fs (int): Sampling", [txt "      frequency"; []]).
Proof.
  split; [vm_compute; reflexivity|]. split; [exists "f"%char; eexists; split; reflexivity|]. constructor; [|constructor; [now left|constructor]].
  right. exists (txt "      "), (txt "frequency"). split; [reflexivity|]. split; [repeat constructor|cbn; lia].
Qed.

(** The entry of a parameter is its label. *)
Theorem c80_label : forall es1 es2 more k e, (exists c r, shown e = k ++ c :: r /\ ~ word_char c) ->
  (forall d, In d (es1 ++ es2 ++ more) -> forall c r, ~ word_char c -> d <> k ++ c :: r) ->
  labels (es1 ++ shown e :: es2 ++ more) k = [shown e].
Proof.
  intros es1 es2 more k e (c & r & E & W) H. unfold labels. rewrite word_char_iff in W. apply not_true_is_false in W.
  assert (H' : forall d, In d (es1 ++ es2 ++ more) -> forall c r, is_word c = false -> d <> k ++ c :: r).
  { intros d I x t X. apply (H d I). rewrite word_char_iff. congruence. }
  clear H. rename H' into H.
  assert (D : forall d, In d (es1 ++ es2 ++ more) -> describes k d = false).
  { intros d I. unfold describes. destruct (after k d) as [[|x t]|] eqn:A; try reflexivity. apply after_spec in A.
    destruct (is_word x) eqn:X; [reflexivity|]. elim (H d I x t X A). }
  rewrite filter_app. cbn [filter]. replace (describes k (shown e)) with true by (unfold describes; rewrite E, after_app, W; reflexivity).
  rewrite (filter_all_false _ _ es1) by (intros d I; apply D; apply in_or_app; now left).
  rewrite (filter_all_false _ _ (es2 ++ more)) by (intros d I; apply D; apply in_or_app; now right). reflexivity.
Qed.
Print Assumptions c80_label.

(** A line of spaces in the documentation, or a space after "Args:", joins all
    entries that follow. *)
Theorem c80_spaces_refuted :
  parse_docs (Some (txt "Args:" ++ lf :: join lf [txt "    fs: A"; txt "  "; txt "    h: B"; txt "    n: C"])) =
    [txt "fs: A"; txt " h: B n: C"] /\
  parse_docs (Some (txt "Args: " ++ lf :: join lf [txt "    fs: A"; txt "    h: B"])) = [txt " fs: A h: B"].
Proof. split; vm_compute; reflexivity. Qed.
Print Assumptions c80_spaces_refuted.

(** *** The page *)

(** Lines of a page: texts, and elements that are opened and closed. *)
Definition t_button : text := txt "<button type=""button"" class=""collapsible"">".
Definition t_div : text := txt "<div class=""noncollapsible"">".
Definition t_content : text := txt "<div class=""content"">".
Definition e_button : text := txt "</button>".
Definition e_div : text := txt "</div>".
Inductive page : list text -> Prop :=
| P_nil : page []
| P_text : forall l ls, ~ In l [t_button; t_div; t_content; e_button; e_div] -> page ls -> page (l :: ls)
| P_button : forall a b, page a -> page b -> page (t_button :: a ++ e_button :: b)
| P_div : forall t a b, t = t_div \/ t = t_content -> page a -> page b -> page (t :: a ++ e_div :: b).

(** The parameters that are shown: those without "__" in their name. *)
Definition visible (k : text) : Prop := no_sub (txt "__") k.
(** Names are identifiers, so they are not empty, have one line and do not start
    with "<". *)
Fixpoint named (m : model) : Prop :=
  match m with
  | Model _ ps =>
    (fix go ps := match ps with
                  | [] => True
                  | (k, v) :: ps => ((exists c r, k = c :: r /\ c <> "<"%char) /\ ~ In lf k) /\ match v with Some s => named s | None => True end /\ go ps
                  end) ps
  end.
(** Numbers of submodels and of other parameters that are shown. *)
Fixpoint submodels (m : model) : nat :=
  match m with
  | Model _ ps => list_sum (map (fun kv => if infix (txt "__") (fst kv) then 0 else match snd kv with Some s => S (submodels s) | None => 0 end)%nat ps)
  end.
Fixpoint leaves (m : model) : nat :=
  match m with
  | Model _ ps => list_sum (map (fun kv => if infix (txt "__") (fst kv) then 0 else match snd kv with Some s => leaves s | None => 1 end)%nat ps)
  end.
Lemma model_ind' : forall (P : model -> Prop),
  (forall d ps, Forall (fun kv : text * option model => match snd kv with Some s => P s | None => True end) ps -> P (Model d ps)) ->
  forall m, P m.
Proof.
  intros P H. fix F 1. intros [d ps]. apply H.
  induction ps as [|[k [s|]] ps IH]; constructor; cbn [snd]; [apply F|exact IH|exact Logic.I|exact IH].
Qed.

Lemma split_join_flat : forall c ps, ps <> [] -> split c (join c ps) = flat_map (split c) ps.
Proof.
  assert (G : forall c p s, split c (p ++ c :: s) = split c p ++ split c s).
  { induction p as [|x p IH]; intros s; cbn [app split]; [now rewrite Ascii.eqb_refl|]. destruct (Ascii.eqb x c); [now rewrite IH|].
    rewrite IH. destruct (split c p) as [|q qs] eqn:E; [|reflexivity]. exfalso. clear -E. destruct p as [|y p]; [discriminate|].
    cbn [split] in E. destruct (Ascii.eqb y c); [discriminate|]. destruct (split c p); discriminate. }
  induction ps as [|p ps IH]; intros N; [congruence|]. destruct ps as [|q ps]; [cbn; now rewrite app_nil_r|].
  change (join c (p :: q :: ps)) with (p ++ c :: join c (q :: ps)). rewrite G, IH by discriminate. reflexivity.
Qed.
Lemma page_app : forall a b, page a -> page b -> page (a ++ b).
Proof.
  induction 1 as [|l ls N P IH|a1 b1 P1 IH1 P2 IH2|t a1 b1 T P1 IH1 P2 IH2]; intros Pb; [exact Pb| | |]; cbn [app].
  - apply P_text; auto.
  - rewrite <- app_assoc. cbn [app]. apply P_button; auto.
  - rewrite <- app_assoc. cbn [app]. apply P_div; auto.
Qed.
Lemma page_texts : forall ls, Forall (fun l => ~ In l [t_button; t_div; t_content; e_button; e_div]) ls -> page ls.
Proof. induction 1; [constructor|]. now constructor. Qed.

Lemma no_lf_split : forall s, Forall (fun p => ~ In lf p) (split lf s).
Proof.
  induction s as [|c s IH]; [repeat constructor; intros []|]. cbn [split]. destruct (Ascii.eqb_spec c lf) as [->|N]; [constructor; [intros []|exact IH]|].
  destruct (split lf s) as [|p ps]; [constructor; [intros [->|[]]; congruence|constructor]|]. inversion IH; subst. constructor; [|assumption].
  intros [->|I]; [congruence|tauto].
Qed.
Lemma drop_incl : forall A (f : A -> bool) l x, In x (dropwhile f l) -> In x l.
Proof. intros A f l x I. rewrite <- (take_drop _ f l). apply in_or_app. now right. Qed.
Lemma strip_incl : forall s x, In x (strip s) -> In x s.
Proof. intros s x I. unfold strip in I. apply in_rev in I. apply drop_incl in I. apply in_rev in I. now apply drop_incl in I. Qed.
Lemma join_incl : forall c ps x, In x (join c ps) -> x = c \/ exists p, In p ps /\ In x p.
Proof.
  induction ps as [|p ps IH]; intros x I; [destruct I|]. destruct ps as [|q ps]; [right; exists p; split; [now left|exact I]|].
  change (join c (p :: q :: ps)) with (p ++ c :: join c (q :: ps)) in I. apply in_app_or in I. destruct I as [I|[I|I]]; [right; exists p; split; [now left|exact I]|now left|].
  destruct (IH x I) as [->|(p' & I1 & I2)]; [now left|]. right. exists p'. split; [now right|exact I2].
Qed.
Lemma items_incl : forall ls i s e l, In e (items i s ls) -> In l e -> In l s \/ In l ls.
Proof.
  induction ls as [|d ls IH]; intros i s e l I1 I2; cbn [items] in I1; [destruct I1 as [->|[]]; now left|].
  destruct (match i with None => true | Some j => _ end).
  - destruct s as [|s0 s]; [|destruct I1 as [<-|I1]; [now left|]];
      (destruct (IH _ _ _ _ I1 I2) as [[->|[]]|H]; [right; now left|right; now right]).
  - destruct (IH _ _ _ _ I1 I2) as [H|H]; [|right; now right]. apply in_app_or in H. destruct H as [H|[->|[]]]; [now left|right; now left].
Qed.
Lemma docs_lines : forall d l, In l (parse_docs d) -> ~ In lf l.
Proof.
  intros d l I. unfold parse_docs in I. destruct d as [d|]; [|destruct I]. destruct (cut _ _) as [[a b]|]; [|destruct I].
  apply in_map_iff in I. destruct I as (e & <- & I). intros J. unfold join_words in J. apply join_incl in J. destruct J as [J|(p & I1 & I2)]; [discriminate|].
  apply in_map_iff in I1. destruct I1 as (q & <- & I1). apply strip_incl in I2. destruct (items_incl _ _ _ _ _ I I1) as [[]|I3].
  apply filter_In in I3. destruct I3 as [I3 _]. pose proof (no_lf_split b) as F. rewrite Forall_forall in F. exact (F q I3 I2).
Qed.
(** Labels start with the name and have one line. *)
Lemma labels_spec : forall d k l, ~ In lf k -> In l (labels (parse_docs d) k) -> (exists r, l = k ++ r) /\ ~ In lf l.
Proof.
  intros d k l Nk I. unfold labels in I. destruct (filter (describes k) (parse_docs d)) as [|x xs] eqn:E.
  - destruct I as [<-|[]]. split; [exists []; now rewrite app_nil_r|exact Nk].
  - rewrite <- E in I. apply filter_In in I. destruct I as [I D]. split; [|eapply docs_lines; exact I].
    unfold describes in D. destruct (after k l) as [[|c r]|] eqn:A; try discriminate. apply after_spec in A. now exists (c :: r).
Qed.
Lemma label_text : forall k l c r, k = c :: r -> c <> "<"%char -> (exists r, l = k ++ r) -> ~ In l [t_button; t_div; t_content; e_button; e_div].
Proof.
  intros k l c r -> N [r' ->] I.
  assert (H : forall t, In t [t_button; t_div; t_content; e_button; e_div] -> exists u, t = "<"%char :: u).
  { intros t [<-|[<-|[<-|[<-|[<-|[]]]]]]; eexists; reflexivity. }
  destruct (H _ I) as [u Hu]. injection Hu as Hu _. congruence.
Qed.

Definition block (docs : list text) (kv : text * option model) : list text :=
  let '(k, v) := kv in
  if infix (txt "__") k then []
  else match v with
       | Some sub => t_button :: labels docs k ++ [e_button; t_content; html_model sub; e_div]
       | None => t_div :: labels docs k ++ [e_div]
       end.
Lemma html_blocks : forall d ps, html_model (Model d ps) = join lf (flat_map (block (parse_docs d)) ps).
Proof. reflexivity. Qed.
Lemma flat_split_id : forall ls, Forall (fun l => ~ In lf l) ls -> flat_map (split lf) ls = ls.
Proof. induction 1 as [|l ls H F IH]; [reflexivity|]. cbn [flat_map]. rewrite split_no by exact H. rewrite IH. reflexivity. Qed.
Lemma block_lines : forall d k v, ~ In lf k ->
  flat_map (split lf) (block (parse_docs d) (k, v)) =
  if infix (txt "__") k then []
  else match v with
       | Some sub => t_button :: labels (parse_docs d) k ++ e_button :: t_content :: split lf (html_model sub) ++ [e_div]
       | None => t_div :: labels (parse_docs d) k ++ [e_div]
       end.
Proof.
  intros d k v Nk. unfold block. destruct (infix (txt "__") k); [reflexivity|].
  assert (Fl : Forall (fun l => ~ In lf l) (labels (parse_docs d) k)) by (apply Forall_forall; intros l I; now apply labels_spec in I).
  destruct v as [sub|]; cbn [flat_map]; rewrite flat_map_app, flat_split_id by exact Fl; reflexivity.
Qed.
Lemma empty_text : ~ In (@nil ascii) [t_button; t_div; t_content; e_button; e_div].
Proof. intros [H|[H|[H|[H|[H|[]]]]]]; discriminate H. Qed.

(** Every element that is opened is closed, in order. *)
Theorem c80_page : forall m, named m -> page (split lf (html_model m)).
Proof.
  induction m as [d ps IH] using model_ind'. intros N. rewrite html_blocks.
  assert (G : page (flat_map (split lf) (flat_map (block (parse_docs d)) ps))).
  { revert N. induction IH as [|[k v] ps Hv IH IHps]; intros N; [constructor|]. cbn [named] in N. destruct N as (((c & r & Ek & Hc) & Nk) & Nv & Nps).
    cbn [flat_map]. rewrite flat_map_app. apply page_app; [|now apply IHps]. rewrite block_lines by exact Nk. destruct (infix (txt "__") k); [constructor|].
    assert (Pl : page (labels (parse_docs d) k)).
    { apply page_texts. apply Forall_forall. intros l I. apply labels_spec in I; [|exact Nk]. eapply label_text; [exact Ek|exact Hc|apply I]. }
    destruct v as [sub|].
    - apply (P_button (labels (parse_docs d) k)); [exact Pl|]. apply (P_div t_content _ []); [now right| |constructor]. apply Hv. exact Nv.
    - apply (P_div t_div _ []); [now left|exact Pl|constructor]. }
  destruct (flat_map (block (parse_docs d)) ps) as [|b bs] eqn:E.
  - cbn. constructor; [apply empty_text|constructor].
  - rewrite split_join_flat by discriminate. exact G.
Qed.
Print Assumptions c80_page.

(** It has one button for each submodel and one plain element for each other
    parameter that is shown. *)
Definition count (t : text) (ls : list text) : nat := List.length (filter (text_eqb t) ls).
Lemma count_app : forall t a b, count t (a ++ b) = (count t a + count t b)%nat.
Proof. intros t a b. unfold count. now rewrite filter_app, app_length. Qed.
Lemma count_texts : forall t ls, Forall (fun l => l <> t) ls -> count t ls = 0%nat.
Proof.
  intros t ls F. unfold count. rewrite filter_all_false; [reflexivity|]. intros x I. rewrite Forall_forall in F. specialize (F x I).
  destruct (text_eqb t x) eqn:E; [|reflexivity]. apply text_eqb_spec in E. congruence.
Qed.
Theorem c80_counts : forall m, named m ->
  count t_button (split lf (html_model m)) = submodels m /\ count t_div (split lf (html_model m)) = leaves m.
Proof.
  induction m as [d ps IH] using model_ind'. intros N. rewrite html_blocks. cbn [submodels leaves].
  assert (G : count t_button (flat_map (split lf) (flat_map (block (parse_docs d)) ps)) =
      list_sum (map (fun kv => if infix (txt "__") (fst kv) then 0 else match snd kv with Some s => S (submodels s) | None => 0 end)%nat ps) /\
    count t_div (flat_map (split lf) (flat_map (block (parse_docs d)) ps)) =
      list_sum (map (fun kv => if infix (txt "__") (fst kv) then 0 else match snd kv with Some s => leaves s | None => 1 end)%nat ps)).
  { revert N. induction IH as [|[k v] ps Hv IH IHps]; intros N; [split; reflexivity|]. cbn [named] in N. destruct N as (((c & r & Ek & Hc) & Nk) & Nv & Nps).
    destruct (IHps Nps) as [E1 E2]. cbn [flat_map map list_sum fold_right fst snd]. rewrite flat_map_app, !count_app, E1, E2. rewrite block_lines by exact Nk.
    unfold list_sum. destruct (infix (txt "__") k); [split; reflexivity|].
    assert (Lt : forall t, In t [t_button; t_div] -> count t (labels (parse_docs d) k) = 0%nat).
    { intros t It. apply count_texts. apply Forall_forall. intros l I El. subst l. apply labels_spec in I; [|exact Nk].
      eapply label_text; [exact Ek|exact Hc|apply I|]. destruct It as [<-|[<-|[]]]; [now left|right; now left]. }
    destruct v as [sub|].
    - cbn [snd] in Hv. destruct (Hv Nv) as [S1 S2].
      change (t_button :: labels (parse_docs d) k ++ e_button :: t_content :: split lf (html_model sub) ++ [e_div])
        with ([t_button] ++ labels (parse_docs d) k ++ [e_button; t_content] ++ split lf (html_model sub) ++ [e_div]).
      rewrite !count_app, !Lt, S1, S2 by (cbn; auto). split; cbn; lia.
    - change (t_div :: labels (parse_docs d) k ++ [e_div]) with ([t_div] ++ labels (parse_docs d) k ++ [e_div]).
      rewrite !count_app, !Lt by (cbn; auto). split; cbn; lia. }
  destruct (flat_map (block (parse_docs d)) ps) as [|b bs] eqn:E.
  - cbn [join split]. destruct G as [G1 G2]. rewrite <- G1, <- G2. split; reflexivity.
  - rewrite split_join_flat by discriminate. exact G.
Qed.
Print Assumptions c80_counts.

(** Every parameter that is shown, of the model or of a submodel that is shown,
    has a line that starts with its name. *)
Inductive shows : model -> text -> Prop :=
| S_here : forall d ps k v, In (k, v) ps -> visible k -> shows (Model d ps) k
| S_sub : forall d ps k s k', In (k, Some s) ps -> visible k -> shows s k' -> shows (Model d ps) k'.
Lemma visible_spec : forall k, visible k -> infix (txt "__") k = false.
Proof.
  intros k V. destruct (infix (txt "__") k) eqn:E; [|reflexivity]. apply infix_spec in E. destruct E as (a & b & E). elim (V a b E).
Qed.
Lemma named_in : forall d ps k v, named (Model d ps) -> In (k, v) ps -> ~ In lf k /\ match v with Some s => named s | None => True end.
Proof.
  intros d ps k v. cbn [named]. induction ps as [|[k0 v0] ps IH]; intros N I; [destruct I|]. destruct N as ((_ & Nk) & Nv & Nps).
  destruct I as [I|I]; [injection I as -> ->; auto|auto].
Qed.
Lemma block_in : forall d ps k v l, named (Model d ps) -> In (k, v) ps ->
  In l (flat_map (split lf) (block (parse_docs d) (k, v))) -> In l (split lf (html_model (Model d ps))).
Proof.
  intros d ps k v l N I Il. rewrite html_blocks.
  assert (G : In l (flat_map (split lf) (flat_map (block (parse_docs d)) ps))).
  { apply in_flat_map in Il. destruct Il as (b & Ib & Il). apply in_flat_map. exists b. split; [|exact Il]. apply in_flat_map. exists (k, v). auto. }
  destruct (flat_map (block (parse_docs d)) ps); [destruct G|]. now rewrite split_join_flat by discriminate.
Qed.
Theorem c80_shown : forall m k, shows m k -> named m -> exists r, In (k ++ r) (split lf (html_model m)).
Proof.
  induction 1 as [d ps k v I V | d ps k s k' I V Sh IH]; intros N; pose proof (named_in _ _ _ _ N I) as [Nk Nv].
  - destruct (labels (parse_docs d) k) as [|l ls] eqn:El.
    + unfold labels in El. destruct (filter _ _); discriminate.
    + assert (Il : In l (labels (parse_docs d) k)) by (rewrite El; now left).
      destruct (labels_spec d k l Nk Il) as [[r ->] _]. exists r. apply (block_in d ps k v _ N I). rewrite block_lines by exact Nk.
      rewrite (visible_spec k V). destruct v as [s|]; right; apply in_or_app; left; exact Il.
  - destruct (IH Nv) as [r Hr]. exists r. apply (block_in d ps k (Some s) _ N I). rewrite block_lines by exact Nk. rewrite (visible_spec k V).
    right. apply in_or_app. right. right. right. apply in_or_app. now left.
Qed.
Print Assumptions c80_shown.

Definition model_demo : model :=
  Model (Some doc_demo) [(txt "fs", None); (txt "tracker", Some (Model None [(txt "h", None)])); (txt "tracker__h", None)].
Example c80_example : named model_demo /\ shows model_demo (txt "h") /\ submodels model_demo = 1%nat /\ leaves model_demo = 2%nat /\
  split lf (html_model model_demo) =
  [t_div; txt "fs (int): Sampling frequency"; e_div; t_button; txt "tracker"; e_button; t_content; t_div; txt "h"; e_div; e_div].
Proof.
  split; [|split; [|split; [|split]]]; try (vm_compute; reflexivity).
  - cbn. repeat split; try (eexists; eexists; split; [reflexivity|discriminate]); vm_compute; intuition discriminate.
  - assert (V : forall k, infix (txt "__") k = false -> visible k).
    { intros k E a b H. assert (infix (txt "__") k = true) by (apply infix_spec; now exists a, b). congruence. }
    eapply S_sub; [right; left; reflexivity|apply V; vm_compute; reflexivity|]. eapply S_here; [left; reflexivity|apply V; vm_compute; reflexivity].
Qed.
