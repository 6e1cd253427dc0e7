(** Lemmas about the texts of Nb_Model.v. *)
From Coq Require Import String Ascii List Bool Arith Lia.
Import ListNotations.
From Verif Require Import Base Dict Changelog_Model Nb_Model.
Local Open Scope list_scope.

Lemma after_spec : forall p s r, after p s = Some r <-> s = p ++ r.
Proof.
  induction p as [|a p IH]; intros s r; cbn [after app].
  - split; congruence.
  - destruct s as [|b s]; [split; discriminate|]. destruct (Ascii.eqb_spec a b) as [->|N].
    + rewrite IH. split; congruence.
    + split; [discriminate|]. intros E. injection E as -> _. congruence.
Qed.
Lemma after_app : forall p r, after p (p ++ r) = Some r.
Proof. intros p r. now apply after_spec. Qed.
Lemma before_spec : forall p s m, before p s = Some m <-> s = m ++ p.
Proof.
  intros p s m. unfold before. split.
  - destruct (after (rev p) (rev s)) as [r|] eqn:E; [|discriminate]. cbn. intros H. injection H as <-.
    apply after_spec in E. rewrite <- (rev_involutive s), E, rev_app_distr, rev_involutive. reflexivity.
  - intros ->. rewrite rev_app_distr, after_app. cbn. now rewrite rev_involutive.
Qed.
Lemma before_app : forall p m, before p (m ++ p) = Some m.
Proof. intros p m. now apply before_spec. Qed.
Lemma infix_spec : forall p s, infix p s = true <-> exists a b, s = a ++ p ++ b.
Proof.
  intros p s. split.
  - induction s as [|c s IH]; cbn [infix].
    + destruct (after p []) as [r|] eqn:E; [|discriminate]. intros _. apply after_spec in E. exists [], r. exact E.
    + destruct (after p (c :: s)) as [r|] eqn:E; intros H.
      * apply after_spec in E. exists [], r. exact E.
      * destruct (IH H) as (a & b & ->). now exists (c :: a), b.
  - intros (a & b & ->). induction a as [|c a IH].
    + cbn [app]. destruct (p ++ b) as [|x l] eqn:E; cbn [infix]; rewrite <- E, after_app; reflexivity.
    + cbn [app infix]. destruct (after p (c :: a ++ p ++ b)); [reflexivity|exact IH].
Qed.
Lemma text_eqb_spec : forall a b, text_eqb a b = true <-> a = b.
Proof.
  induction a as [|x a IH]; intros [|y b]; cbn; try (split; [reflexivity|reflexivity] || (split; discriminate)).
  - rewrite andb_true_iff, IH. destruct (Ascii.eqb_spec x y) as [->|N]; split.
    + intros [_ ->]. reflexivity.
    + intros H. injection H as ->. auto.
    + intros [H _]. discriminate.
    + intros H. injection H as -> _. congruence.
Qed.

(** ** takewhile, dropwhile *)
Lemma take_drop : forall A (f : A -> bool) l, takewhile f l ++ dropwhile f l = l.
Proof. induction l as [|x l IH]; [reflexivity|]. cbn. destruct (f x); [cbn; now rewrite IH|reflexivity]. Qed.
Lemma take_all : forall A (f : A -> bool) l, Forall (fun x => f x = true) (takewhile f l).
Proof. induction l as [|x l IH]; [constructor|]. cbn. destruct (f x) eqn:E; constructor; auto. Qed.
Lemma drop_head : forall A (f : A -> bool) l x r, dropwhile f l = x :: r -> f x = false.
Proof. induction l as [|y l IH]; [discriminate|]. intros x r. cbn. destruct (f y) eqn:E; [apply IH|]. congruence. Qed.
Lemma take_app : forall A (f : A -> bool) a x r, Forall (fun x => f x = true) a -> f x = false -> takewhile f (a ++ x :: r) = a.
Proof. induction 1 as [|y a E F IH]; intros H; cbn; [now rewrite H|]. rewrite E. f_equal. auto. Qed.
Lemma drop_app : forall A (f : A -> bool) a x r, Forall (fun x => f x = true) a -> f x = false -> dropwhile f (a ++ x :: r) = x :: r.
Proof. induction 1 as [|y a E F IH]; intros H; cbn; [now rewrite H|]. rewrite E. auto. Qed.
Lemma take_id : forall A (f : A -> bool) a, Forall (fun x => f x = true) a -> takewhile f a = a.
Proof. induction 1 as [|y a E F IH]; cbn; [reflexivity|]. rewrite E. now f_equal. Qed.
Lemma drop_id : forall A (f : A -> bool) a, Forall (fun x => f x = true) a -> dropwhile f a = [].
Proof. induction 1 as [|y a E F IH]; cbn; [reflexivity|]. now rewrite E. Qed.

Lemma skipn_len : forall A (a b : list A), skipn (List.length a) (a ++ b) = b.
Proof. induction a as [|x a IH]; intros b; [reflexivity|apply IH]. Qed.
Lemma firstn_len : forall A (a b : list A), firstn (List.length a) (a ++ b) = a.
Proof. induction a as [|x a IH]; intros b; [reflexivity|]. cbn. now rewrite IH. Qed.

Lemma forallb_not_lf : forall s, forallb not_lf s = true <-> ~ In lf s.
Proof.
  intros s. rewrite forallb_forall. unfold not_lf. split.
  - intros H I. specialize (H lf I). now rewrite Ascii.eqb_refl in H.
  - intros H c I. destruct (Ascii.eqb_spec c lf) as [->|]; [tauto|reflexivity].
Qed.

(** ** Lines *)
Definition unbroken (s : text) : Prop := Forall (fun c => is_break c = false) s.
Lemma break_lf : is_break lf = true. Proof. reflexivity. Qed.
Lemma unbroken_lf : forall s, unbroken s -> ~ In lf s.
Proof. intros s F I. unfold unbroken in F. rewrite Forall_forall in F. specialize (F lf I). discriminate. Qed.
Lemma splitlines_cons : forall c s, is_break c = false ->
  splitlines (c :: s) = match splitlines s with [] => [[c]] | p :: ps => (c :: p) :: ps end.
Proof. intros c s H. cbn [splitlines]. now rewrite H. Qed.
Lemma splitlines_unbroken : forall s, Forall unbroken (splitlines s).
Proof.
  intros s. remember (List.length s) as n eqn:E. assert (H : (List.length s <= n)%nat) by lia. clear E. revert s H.
  induction n as [|n IH]; intros s H; [destruct s; [constructor|cbn in H; lia]|].
  destruct s as [|c s]; [constructor|]. cbn [List.length] in H. destruct (is_break c) eqn:B.
  - cbn [splitlines]. rewrite B. destruct s as [|d s]; [repeat constructor|].
    destruct (Ascii.eqb c cr && Ascii.eqb d lf); constructor; try constructor; apply IH; cbn in *; lia.
  - rewrite splitlines_cons by exact B. specialize (IH s ltac:(lia)).
    destruct (splitlines s) as [|p ps]; [repeat constructor; exact B|]. inversion IH; subst. constructor; [|assumption]. constructor; [exact B|assumption].
Qed.
Lemma splitlines_line : forall p, unbroken p -> splitlines p = match p with [] => [] | _ => [p] end.
Proof.
  induction 1 as [|c p H F IH]; [reflexivity|]. rewrite splitlines_cons, IH by exact H. destruct p; reflexivity.
Qed.
Lemma splitlines_lf : forall s, splitlines (lf :: s) = [] :: splitlines s.
Proof. intros s. cbn [splitlines]. change (is_break lf) with true. cbn iota. destruct s as [|d s]; reflexivity. Qed.
Lemma splitlines_app : forall p s, unbroken p -> splitlines (p ++ lf :: s) = p :: splitlines s.
Proof.
  induction 1 as [|c p H F IH]; [apply splitlines_lf|]. cbn [app]. rewrite splitlines_cons, IH by exact H. reflexivity.
Qed.
Lemma splitlines_join : forall ls, Forall unbroken ls -> last ls [lf] <> [] -> splitlines (join lf ls) = ls.
Proof.
  induction 1 as [|p ls H F IH]; intros N; [reflexivity|]. destruct ls as [|q ls].
  - cbn [join]. rewrite splitlines_line by exact H. cbn in N. destruct p; [congruence|reflexivity].
  - change (join lf (p :: q :: ls)) with (p ++ lf :: join lf (q :: ls)). rewrite splitlines_app by exact H. now rewrite IH.
Qed.
(** A line end at the end changes nothing. *)
Lemma splitlines_end : forall ls, Forall unbroken ls -> ls <> [] -> splitlines (join lf ls ++ [lf]) = ls.
Proof.
  induction 1 as [|p ls H F IH]; intros N; [congruence|]. destruct ls as [|q ls].
  - cbn [join]. rewrite splitlines_app by exact H. reflexivity.
  - change (join lf (p :: q :: ls)) with (p ++ lf :: join lf (q :: ls)). rewrite <- app_assoc. cbn [app].
    rewrite splitlines_app by exact H. rewrite IH by discriminate. reflexivity.
Qed.
Lemma join_snoc : forall ls x, ls <> [] -> join lf (ls ++ [x]) = join lf ls ++ lf :: x.
Proof.
  induction ls as [|p ls IH]; intros x N; [congruence|]. destruct ls as [|q ls]; [reflexivity|].
  change (join lf ((p :: q :: ls) ++ [x])) with (p ++ lf :: join lf ((q :: ls) ++ [x])).
  rewrite IH by discriminate. change (join lf (p :: q :: ls)) with (p ++ lf :: join lf (q :: ls)). now rewrite <- app_assoc.
Qed.
Lemma split_no : forall c p, ~ In c p -> split c p = [p].
Proof.
  induction p as [|x p IH]; intros N; [reflexivity|]. cbn [split]. destruct (Ascii.eqb_spec x c) as [->|]; [exfalso; apply N; now left|].
  rewrite IH; [reflexivity|]. intros I. apply N. now right.
Qed.
Lemma split_cat : forall c p s, ~ In c p -> split c (p ++ c :: s) = p :: split c s.
Proof.
  induction p as [|x p IH]; intros s N.
  - cbn [app split]. now rewrite Ascii.eqb_refl.
  - cbn [app split]. destruct (Ascii.eqb_spec x c) as [->|]; [exfalso; apply N; now left|].
    rewrite IH; [reflexivity|]. intros I. apply N. now right.
Qed.
Lemma split_joined : forall c ps, ps <> [] -> Forall (fun p => ~ In c p) ps -> split c (join c ps) = ps.
Proof.
  intros c ps N F. induction F as [|p ps H F IH]; [congruence|]. destruct ps as [|q ps]; [now apply split_no|].
  change (join c (p :: q :: ps)) with (p ++ c :: join c (q :: ps)). rewrite split_cat by exact H. now rewrite IH.
Qed.

(** ** Commands *)
Definition blank (t : text) : Prop := Forall (fun c => is_space c = true) t.
Lemma bang_not_space : forall c, is_bang c = true -> is_space c = false.
Proof.
  intros c H. unfold is_bang in H. apply orb_true_iff in H. destruct H as [H|H]; apply Ascii.eqb_eq in H; subst; reflexivity.
Qed.
Lemma is_command_spec : forall s, is_command s = true <-> exists i c r, s = i ++ c :: r /\ blank i /\ is_bang c = true /\ ~ In lf r.
Proof.
  intros s. unfold is_command. split.
  - destruct (dropwhile is_space s) as [|c r] eqn:E; [discriminate|]. intros H. apply andb_true_iff in H. destruct H as [B N].
    exists (takewhile is_space s), c, r. rewrite <- E, take_drop. repeat split; [apply take_all|exact B|now apply forallb_not_lf].
  - intros (i & c & r & -> & F & B & N). rewrite drop_app by (exact F || now apply bang_not_space). rewrite B. now apply forallb_not_lf.
Qed.
Lemma is_escaped_spec : forall s, is_escaped s = true <->
  exists i c r, s = i ++ pass_comment ++ c :: r ++ escape_comment /\ blank i /\ is_bang c = true /\ ~ In lf r.
Proof.
  intros s. unfold is_escaped. split.
  - destruct (after pass_comment (dropwhile is_space s)) as [[|c r]|] eqn:E; try discriminate. apply after_spec in E. intros H.
    apply andb_true_iff in H. destruct H as [B N]. destruct (before escape_comment r) as [m|] eqn:E2; [|discriminate]. apply before_spec in E2.
    exists (takewhile is_space s), c, m. rewrite <- E2, <- E, take_drop. repeat split; [apply take_all|exact B|now apply forallb_not_lf].
  - intros (i & c & r & -> & F & B & N). change (pass_comment ++ c :: r ++ escape_comment) with ("p"%char :: txt "ass  # " ++ c :: r ++ escape_comment).
    rewrite drop_app by (exact F || reflexivity). change ("p"%char :: txt "ass  # " ++ c :: r ++ escape_comment) with (pass_comment ++ c :: r ++ escape_comment).
    rewrite after_app, B, before_app. now apply forallb_not_lf.
Qed.
Lemma wrap_command : forall i c r, blank i -> is_bang c = true -> ~ In lf r ->
  wrap (i ++ c :: r) = i ++ pass_comment ++ c :: r ++ escape_comment.
Proof.
  intros i c r F B N. unfold wrap. replace (is_command (i ++ c :: r)) with true by (symmetry; apply is_command_spec; exists i, c, r; auto).
  rewrite take_app by (exact F || now apply bang_not_space). now rewrite skipn_len.
Qed.
Lemma unwrap_escaped : forall i c r, blank i -> is_bang c = true -> ~ In lf r ->
  unwrap (i ++ pass_comment ++ c :: r ++ escape_comment) = i ++ c :: r.
Proof.
  intros i c r F B N. unfold unwrap.
  replace (is_escaped (i ++ pass_comment ++ c :: r ++ escape_comment)) with true by (symmetry; apply is_escaped_spec; exists i, c, r; auto).
  set (s := i ++ pass_comment ++ c :: r ++ escape_comment).
  assert (Ti : takewhile is_space s = i).
  { unfold s. change (pass_comment ++ c :: r ++ escape_comment) with ("p"%char :: txt "ass  # " ++ c :: r ++ escape_comment).
    apply take_app; [exact F|reflexivity]. }
  assert (Sk : skipn (List.length i + 8) s = (c :: r) ++ escape_comment).
  { unfold s. replace (List.length i + 8)%nat with (List.length (i ++ pass_comment)) by (rewrite app_length; reflexivity).
    rewrite (app_assoc i pass_comment). apply skipn_len. }
  assert (Ls : (List.length s = List.length i + 8 + List.length (c :: r) + List.length escape_comment)%nat).
  { unfold s. rewrite !app_length. cbn [List.length]. rewrite app_length. cbn. lia. }
  rewrite Ti, Sk, Ls. f_equal. replace (_ - _ - _)%nat with (List.length (c :: r)) by lia. apply firstn_len.
Qed.
Lemma wrap_other : forall s, is_command s = false -> wrap s = s.
Proof. intros s H. unfold wrap. now rewrite H. Qed.
Lemma unwrap_other : forall s, is_escaped s = false -> unwrap s = s.
Proof. intros s H. unfold unwrap. now rewrite H. Qed.
Lemma escaped_not_command : forall s, is_escaped s = true -> is_command s = false.
Proof.
  intros s H. apply is_escaped_spec in H. destruct H as (i & c & r & -> & F & B & N). unfold is_command.
  change (pass_comment ++ c :: r ++ escape_comment) with ("p"%char :: txt "ass  # " ++ c :: r ++ escape_comment).
  rewrite drop_app by (exact F || reflexivity). reflexivity.
Qed.
Lemma wrap_unwrap : forall s, is_command s = false -> wrap (unwrap s) = s.
Proof.
  intros s H. destruct (is_escaped s) eqn:E.
  - apply is_escaped_spec in E. destruct E as (i & c & r & -> & F & B & N). rewrite unwrap_escaped, wrap_command by assumption. reflexivity.
  - rewrite unwrap_other by exact E. now apply wrap_other.
Qed.
Lemma wrap_not_command : forall s, is_command (wrap s) = false.
Proof.
  intros s. destruct (is_command s) eqn:E; [|rewrite wrap_other by exact E; exact E].
  apply is_command_spec in E. destruct E as (i & c & r & -> & F & B & N). rewrite wrap_command by assumption.
  apply escaped_not_command. apply is_escaped_spec. exists i, c, r. auto.
Qed.
Lemma wrap_unbroken : forall s, unbroken s -> unbroken (wrap s).
Proof.
  intros s U. unfold wrap. destruct (is_command s); [|exact U].
  assert (U2 : unbroken (takewhile is_space s) /\ unbroken (dropwhile is_space s)) by (rewrite <- (take_drop _ is_space s) in U; apply Forall_app in U; exact U).
  replace (skipn (List.length (takewhile is_space s)) s) with (dropwhile is_space s).
  - apply Forall_app. split; [apply U2|]. apply Forall_app. split; [repeat constructor|]. apply Forall_app. split; [apply U2|repeat constructor].
  - rewrite <- (take_drop _ is_space s) at 3. now rewrite skipn_len.
Qed.
Lemma unwrap_unbroken : forall s, unbroken s -> unbroken (unwrap s).
Proof.
  intros s U. destruct (is_escaped s) eqn:E; [|rewrite unwrap_other by exact E; exact U].
  apply is_escaped_spec in E. destruct E as (i & c & r & -> & F & B & N). rewrite unwrap_escaped by assumption.
  unfold unbroken in *. rewrite !Forall_app in U. destruct U as (U1 & _ & U2). inversion U2 as [|? ? Hc U3]; subst. apply Forall_app in U3.
  apply Forall_app. split; [exact U1|]. constructor; [exact Hc|]. apply U3.
Qed.
Lemma unwrap_empty : forall s, unwrap s = [] -> s = [].
Proof.
  intros s H. destruct (is_escaped s) eqn:E; [|now rewrite unwrap_other in H by exact E].
  apply is_escaped_spec in E. destruct E as (i & c & r & -> & F & B & N). rewrite unwrap_escaped in H by assumption. destruct i; discriminate.
Qed.
Lemma wrap_empty : forall s, wrap s = [] -> s = [].
Proof.
  intros s H. destruct (is_command s) eqn:E; [|now rewrite wrap_other in H by exact E].
  apply is_command_spec in E. destruct E as (i & c & r & -> & F & B & N). rewrite wrap_command in H by assumption. destruct i; discriminate.
Qed.
