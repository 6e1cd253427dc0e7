(** C56: changelog versions are totally ordered.
    C63: the section of a version is found. *)
From Coq Require Import String Ascii List Bool ZArith Lia Permutation Sorted.
Import ListNotations.
From Verif Require Import Base Dict ListLemmas Changelog_Model.
Local Open Scope list_scope.

(** ** C56 *)

(** [u] is older than [v]: at the first difference its number is smaller, or it
    is a proper prefix. *)
Definition older (u v : list Z) : Prop :=
  exists p, (exists j r, u = p /\ v = p ++ j :: r) \/
            (exists i j r s, u = p ++ i :: r /\ v = p ++ j :: s /\ (i < j)%Z).

Lemma compare_older : forall u v, version_compare u v = (-1)%Z <-> older u v.
Proof.
  induction u as [|i u IH]; intros [|j v]; cbn [version_compare].
  - split; [discriminate|]. intros (p & [(j & r & E & F)|(i & j & r & s & E & _)]); destruct p; discriminate.
  - split; [|reflexivity]. intros _. exists []. left. exists j, v. auto.
  - split; [discriminate|]. intros (p & [(j & r & E & F)|(i0 & j & r & s & E & F & _)]); destruct p; discriminate.
  - destruct (Z.eqb_spec i j) as [->|N].
    + rewrite IH. split.
      * intros (p & [(k & r & -> & ->)|(a & b & r & s & -> & -> & L)]).
        -- exists (j :: p). left. exists k, r. auto.
        -- exists (j :: p). right. exists a, b, r, s. auto.
      * intros (p & [(k & r & E & F)|(a & b & r & s & E & F & L)]).
        -- destruct p as [|x p]; [discriminate|]. injection E as -> ->. injection F as ->. exists p. left. exists k, r. auto.
        -- destruct p as [|x p].
           ++ injection E as -> ->. injection F as -> ->. lia.
           ++ injection E as -> ->. injection F as ->. exists p. right. exists a, b, r, s. auto.
    + destruct (Z.ltb_spec i j).
      * split; [|reflexivity]. intros _. exists []. right. exists i, j, u, v. auto.
      * split; [discriminate|]. intros (p & [(k & r & E & F)|(a & b & r & s & E & F & L)]).
        -- destruct p as [|x p]; [discriminate|]. injection E as -> ->. injection F as E _. congruence.
        -- destruct p as [|x p].
           ++ injection E as -> ->. injection F as -> ->. lia.
           ++ injection E as -> ->. injection F as E _. congruence.
Qed.
Lemma compare_opp : forall u v, version_compare v u = (- version_compare u v)%Z.
Proof.
  induction u as [|i u IH]; intros [|j v]; try reflexivity. cbn [version_compare].
  destruct (Z.eqb_spec i j) as [->|N]; [rewrite Z.eqb_refl; apply IH|].
  destruct (Z.eqb_spec j i); [congruence|]. destruct (Z.ltb_spec i j), (Z.ltb_spec j i); lia.
Qed.
Lemma compare_values : forall u v, version_compare u v = (-1)%Z \/ version_compare u v = 0%Z \/ version_compare u v = 1%Z.
Proof.
  induction u as [|i u IH]; intros [|j v]; cbn [version_compare]; auto.
  destruct (Z.eqb i j); [apply IH|]. destruct (Z.ltb i j); auto.
Qed.
Lemma compare_zero : forall u v, version_compare u v = 0%Z <-> u = v.
Proof.
  induction u as [|i u IH]; intros [|j v]; cbn [version_compare]; try (split; congruence).
  destruct (Z.eqb_spec i j) as [->|N]; [rewrite IH; split; congruence|].
  destruct (Z.ltb i j); split; try discriminate; congruence.
Qed.

(** The comparison says which version is older, and orders all versions: for
    two versions exactly one of older, equal and newer holds. *)
Theorem c56_compare : forall u v,
  (version_compare u v = -1 <-> older u v)%Z /\ (version_compare u v = 0 <-> u = v)%Z /\
  (version_compare u v = 1 <-> older v u)%Z /\
  (version_compare u v = -1 \/ version_compare u v = 0 \/ version_compare u v = 1)%Z.
Proof.
  intros u v. split; [apply compare_older|]. split; [apply compare_zero|]. split; [|apply compare_values].
  rewrite <- compare_older, (compare_opp u v). lia.
Qed.
Print Assumptions c56_compare.
Theorem c56_order : (forall u, ~ older u u) /\ (forall u v, u = v \/ older u v \/ older v u) /\
  (forall u v w, older u v -> older v w -> older u w).
Proof.
  split; [|split].
  - intros u H. apply compare_older in H. assert (E : version_compare u u = 0%Z) by now apply compare_zero. lia.
  - intros u v. destruct (c56_compare u v) as (A & B & C & [D|[D|D]]); [right; left|left|right; right]; [apply A|apply B|apply C]; exact D.
  - intros u v w. rewrite <- !compare_older. revert v w. induction u as [|i u IH]; intros [|j v] [|k w]; cbn [version_compare]; try discriminate; try reflexivity.
    destruct (Z.eqb_spec i j) as [->|N1].
    + destruct (Z.eqb_spec j k) as [->|N2]; [apply IH|]. auto.
    + destruct (Z.ltb_spec i j); [|discriminate]. intros _. destruct (Z.eqb_spec j k) as [->|N2].
      * intros _. destruct (Z.eqb_spec i k); [congruence|]. destruct (Z.ltb_spec i k); [reflexivity|lia].
      * destruct (Z.ltb_spec j k); [|discriminate]. intros _. destruct (Z.eqb_spec i k); [lia|]. destruct (Z.ltb_spec i k); [reflexivity|lia].
Qed.
Print Assumptions c56_order.
Example c56_example :
  version_compare [1; 2; 3]%Z [1; 10; 0]%Z = (-1)%Z /\ version_compare [2; 0]%Z [2; 0; 0]%Z = (-1)%Z /\ version_compare [3]%Z [2; 9; 9]%Z = 1%Z.
Proof. repeat split. Qed.

(** *** The list of files *)
Definition newest_first (l : list (text * list Z)) : Prop :=
  StronglySorted (fun p q => ~ older (snd p) (snd q)) l.
Lemma insert_perm : forall x l, Permutation (x :: l) (insert x l).
Proof.
  intros x l. induction l as [|y l IH]; [apply Permutation_refl|]. cbn [insert].
  destruct (Z.ltb (version_compare (snd x) (snd y)) 0); [|apply Permutation_refl].
  eapply Permutation_trans; [apply perm_swap|]. now apply perm_skip.
Qed.
Lemma sort_perm : forall l, Permutation l (sort_newest l).
Proof.
  induction l as [|x l IH]; [apply Permutation_refl|]. cbn [sort_newest fold_right].
  eapply Permutation_trans; [apply perm_skip, IH|apply insert_perm].
Qed.
Lemma not_older : forall u v, ~ older u v <-> (0 <= version_compare u v)%Z.
Proof. intros u v. rewrite <- compare_older. destruct (compare_values u v) as [E|[E|E]]; rewrite E; lia. Qed.
Lemma not_older_trans : forall u v w, ~ older u v -> ~ older v w -> ~ older u w.
Proof.
  intros u v w A B H. destruct c56_order as (I & T & Tr). destruct (T u v) as [->|[D|D]]; [auto|auto|].
  apply B. eapply Tr; [exact D|exact H].
Qed.
Lemma insert_sorted : forall x l, newest_first l -> newest_first (insert x l).
Proof.
  intros x l. induction l as [|y l IH]; intro S; [repeat constructor|]. cbn [insert].
  inversion_clear S as [|? ? S' F]. destruct (Z.ltb_spec (version_compare (snd x) (snd y)) 0) as [L|L].
  - constructor; [now apply IH|]. eapply Permutation_Forall; [apply insert_perm|]. constructor; [|exact F].
    rewrite not_older. pose proof (compare_opp (snd x) (snd y)). lia.
  - assert (N : ~ older (snd x) (snd y)) by (rewrite not_older; lia).
    constructor; [constructor; assumption|]. constructor; [exact N|].
    eapply Forall_impl; [|exact F]. intros z. now apply not_older_trans.
Qed.
Lemma sort_sorted : forall l, newest_first (sort_newest l).
Proof. induction l as [|x l IH]; [constructor|]. cbn [sort_newest fold_right]. now apply insert_sorted. Qed.

(** The files named in the changelog, in order: those whose name gives a
    version, each as often as in the directory, the newest version first. *)
Definition listed (sep : ascii) (files : list text) : list text := map fst (sort_newest (versions sep files)).
Lemma versions_spec : forall sep files f v,
  In (f, v) (versions sep files) <-> In f files /\ file_version sep f = Some v.
Proof.
  intros sep files f v. induction files as [|g files IH]; [cbn; tauto|]. cbn [versions].
  destruct (file_version sep g) as [x|] eqn:E; cbn [In]; rewrite ?IH; split.
  - intros [[= -> ->]|[A B]]; auto.
  - intros [[->|A] B]; [left; congruence|auto].
  - intros [A B]. auto.
  - intros [[->|A] B]; [congruence|auto].
Qed.
Lemma versions_filter : forall sep files,
  map fst (versions sep files) = filter (fun f => match file_version sep f with Some _ => true | None => false end) files.
Proof.
  intros sep files. induction files as [|f files IH]; [reflexivity|]. cbn [versions filter].
  destruct (file_version sep f); cbn [map fst]; now rewrite IH.
Qed.
Theorem c56_listed : forall relpath sep files,
  changelog relpath sep files =
    join newline ((txt "Changelog" ++ newline :: txt "=========" ++ [newline]) ::
                  map (fun f => txt ".. mdinclude:: " ++ relpath ++ "/"%char :: f) (listed sep files) ++ [[]]) /\
  Permutation (filter (fun f => match file_version sep f with Some _ => true | None => false end) files) (listed sep files) /\
  StronglySorted (fun f g => forall u v, file_version sep f = Some u -> file_version sep g = Some v -> ~ older u v)
    (listed sep files).
Proof.
  intros relpath sep files. split; [|split].
  - unfold changelog, listed. now rewrite map_map.
  - rewrite <- versions_filter. apply Permutation_map, sort_perm.
  - unfold listed. assert (V : forall f v, In (f, v) (sort_newest (versions sep files)) -> file_version sep f = Some v).
    { intros f v H. apply (Permutation_in _ (Permutation_sym (sort_perm _))) in H. now apply versions_spec in H. }
    pose proof (sort_sorted (versions sep files)) as S. induction (sort_newest (versions sep files)) as [|[f u] l IH]; [constructor|].
    inversion_clear S as [|? ? S' F]. cbn [map fst]. constructor; [apply IH; [|exact S']; intros; apply V; now right|].
    apply Forall_forall. intros g Hg u' v' Eu Ev. apply in_map_iff in Hg. destruct Hg as ([g' v] & E & Hg). cbn [fst] in E. subst g'.
    rewrite (V f u (or_introl eq_refl)) in Eu. injection Eu as <-. rewrite (V g v (or_intror Hg)) in Ev. injection Ev as <-.
    rewrite Forall_forall in F. exact (F _ Hg).
Qed.
Print Assumptions c56_listed.

(** If no two files have the same version, the order of the directory does not
    matter. *)
Lemma sorted_unique : forall l l', Permutation l l' -> newest_first l -> newest_first l' ->
  (forall p q, In p l -> In q l -> snd p = snd q -> p = q) -> l = l'.
Proof.
  induction l as [|x l IH]; intros l' P S S' U; [apply Permutation_nil in P; now subst|].
  destruct l' as [|y l']; [apply Permutation_sym, Permutation_nil in P; discriminate|].
  inversion_clear S as [|? ? S1 F1]. inversion_clear S' as [|? ? S2 F2].
  assert (E : x = y).
  { assert (Ix : In x (y :: l')) by (eapply Permutation_in; [exact P|now left]).
    assert (Iy : In y (x :: l)) by (eapply Permutation_in; [exact (Permutation_sym P)|now left]).
    destruct Ix as [E|Ix]; [auto|]. destruct Iy as [E|Iy]; [auto|].
    rewrite Forall_forall in F1, F2. pose proof (F1 _ Iy) as A. pose proof (F2 _ Ix) as B.
    apply U; [now left|now right|]. destruct c56_order as (_ & T & _). destruct (T (snd x) (snd y)) as [E|[E|E]]; tauto. }
  subst y. f_equal. apply IH; [now apply Permutation_cons_inv in P|exact S1|exact S2|].
  intros p q Hp Hq. apply U; now right.
Qed.
Lemma versions_perm : forall sep files files', Permutation files files' -> Permutation (versions sep files) (versions sep files').
Proof.
  intros sep files files' P. induction P as [|x l l' P IH|x y l|l1 l2 l3 P1 IH1 P2 IH2]; cbn [versions].
  - constructor.
  - destruct (file_version sep x); [now apply perm_skip|exact IH].
  - destruct (file_version sep x), (file_version sep y); try apply Permutation_refl. apply perm_swap.
  - eapply Permutation_trans; eassumption.
Qed.
Theorem c56_directory_order : forall relpath sep files files',
  Permutation files files' ->
  (forall f g v, In f files -> In g files -> file_version sep f = Some v -> file_version sep g = Some v -> f = g) ->
  changelog relpath sep files = changelog relpath sep files'.
Proof.
  intros relpath sep files files' P U. unfold changelog. do 3 f_equal. f_equal.
  apply sorted_unique; try apply sort_sorted.
  - eapply Permutation_trans; [apply Permutation_sym, sort_perm|]. eapply Permutation_trans; [apply versions_perm, P|apply sort_perm].
  - intros [f u] [g v] Hp Hq E. cbn [snd] in E. subst v.
    apply (Permutation_in _ (Permutation_sym (sort_perm _))), versions_spec in Hp, Hq. f_equal. now apply (U f g u).
Qed.
Print Assumptions c56_directory_order.
(** With two files of the same version it does. *)
Theorem c56_ties_refuted : exists relpath sep files files', NoDup files /\ Permutation files files' /\
  changelog relpath sep files <> changelog relpath sep files'.
Proof.
  exists (txt "../../changelog"), "_"%char, [txt "v1_2_0.md"; txt "v1_02_0.md"], [txt "v1_02_0.md"; txt "v1_2_0.md"].
  split; [|split; [apply perm_swap|vm_compute; discriminate]].
  constructor; [|constructor; [intros []|constructor]]. intros [H|[]]. discriminate.
Qed.
Print Assumptions c56_ties_refuted.
Example c56_changelog_example :
  let files := map txt ["v1_2_0.md"; "README.md"; "v2_0_0.md"; "v1_10_0.md"]%string in
  listed "_" files = map txt ["v2_0_0.md"; "v1_10_0.md"; "v1_2_0.md"]%string /\
  (forall f g v, In f files -> In g files -> file_version "_" f = Some v -> file_version "_" g = Some v -> f = g).
Proof.
  split; [reflexivity|]. intros f g v Hf Hg. cbn [In map] in Hf, Hg.
  repeat (destruct Hf as [<-|Hf] || destruct Hf); repeat (destruct Hg as [<-|Hg] || destruct Hg);
    try reflexivity; vm_compute; try discriminate; congruence.
Qed.

(** ** C63 *)

(** A number as it is written: decimal digits. *)
Definition digits (s : text) : Prop := s <> [] /\ Forall (fun c => is_digit c = true) s.
Fixpoint value (acc : Z) (s : text) : Z :=
  match s with [] => acc | c :: s' => value (10 * acc + (code c - 48)) s' end.

Lemma digit_range : forall c, is_digit c = true -> (48 <= code c <= 57)%Z.
Proof. intros c H. apply andb_true_iff in H. destruct H as [A B]. apply Z.leb_le in A, B. lia. Qed.
Lemma digit_not : forall c, is_digit c = true -> is_space c = false /\ is_alpha c = false /\
  Ascii.eqb c "_" = false /\ Ascii.eqb c "." = false /\ Ascii.eqb c "-" = false /\ Ascii.eqb c "+" = false.
Proof.
  intros c H. apply digit_range in H.
  assert (N : forall d, (code d < 48 \/ 57 < code d)%Z -> Ascii.eqb c d = false).
  { intros d Hd. destruct (Ascii.eqb_spec c d) as [->|]; [lia|reflexivity]. }
  repeat split; try (apply N; vm_compute; intuition congruence); unfold is_space, is_alpha;
    repeat match goal with |- context [Z.leb ?a ?b] => destruct (Z.leb_spec a b) end; try reflexivity; lia.
Qed.
Lemma dropwhile_none : forall A (f : A -> bool) l, Forall (fun c => f c = false) l -> dropwhile f l = l.
Proof. intros A f l H. destruct H as [|c l E H]; [reflexivity|]. cbn. now rewrite E. Qed.
Lemma int_digits_value : forall s acc b, Forall (fun c => is_digit c = true) s -> s <> [] \/ b = true ->
  int_digits acc b s = Some (value acc s).
Proof.
  induction s as [|c s IH]; intros acc b F H; cbn [int_digits value].
  - destruct H as [H| ->]; [congruence|reflexivity].
  - inversion_clear F as [|? ? E F']. rewrite E. apply IH; [exact F'|now right].
Qed.
Lemma py_int_digits : forall s, digits s -> py_int s = Some (value 0 s).
Proof.
  intros s [N F]. unfold py_int, strip.
  rewrite dropwhile_none with (l := s) by (eapply Forall_impl; [|exact F]; intros c H; now apply digit_not in H).
  rewrite dropwhile_none by (apply Forall_rev; eapply Forall_impl; [|exact F]; intros c H; now apply digit_not in H).
  rewrite rev_involutive. destruct s as [|c s]; [congruence|]. inversion F as [|? ? E F']. subst.
  destruct (digit_not c E) as (_ & _ & _ & _ & M & P). rewrite M, P. apply int_digits_value; [exact F|now left].
Qed.
Lemma split_one : forall c p, Forall (fun x => Ascii.eqb x c = false) p -> split c p = [p].
Proof. intros c p F. induction F as [|x p E F IH]; [reflexivity|]. cbn [split]. now rewrite E, IH. Qed.
Lemma split_app : forall c p s, Forall (fun x => Ascii.eqb x c = false) p -> split c (p ++ c :: s) = p :: split c s.
Proof.
  intros c p s F. induction F as [|x p E F IH]; cbn [app split]; [now rewrite Ascii.eqb_refl|]. now rewrite E, IH.
Qed.
Lemma split_join : forall c ps, ps <> [] -> Forall (Forall (fun x => Ascii.eqb x c = false)) ps -> split c (join c ps) = ps.
Proof.
  intros c ps N F. induction F as [|p ps Hp F IH]; [congruence|]. destruct ps as [|q ps]; cbn [join]; [now apply split_one|].
  rewrite split_app by exact Hp. f_equal. now apply IH.
Qed.
Lemma stem_md : forall s, s <> [] -> Forall (fun c => Ascii.eqb c "." = false) s -> stem (s ++ txt ".md") = s.
Proof.
  intros s N F. assert (L : last_dot (s ++ txt ".md") = Some (s, txt "md")).
  { clear N. induction F as [|c s E F IH]; [reflexivity|]. cbn [app last_dot]. now rewrite IH. }
  unfold stem. rewrite L. destruct F as [|c s E F]; [congruence|]. cbn [forallb]. now rewrite E.
Qed.
Lemma takewhile_app : forall A (f : A -> bool) a b, Forall (fun x => f x = true) a ->
  takewhile f (a ++ b) = a ++ takewhile f b.
Proof. intros A f a b F. induction F as [|x a E F IH]; [reflexivity|]. cbn. now rewrite E, IH. Qed.
Lemma join_chars : forall (P : ascii -> Prop) c ps, P c -> Forall (Forall P) ps -> Forall P (join c ps).
Proof.
  intros P c ps Hc F. induction F as [|p ps Hp F IH]; [constructor|]. destruct ps as [|q ps]; cbn [join]; [exact Hp|].
  apply Forall_app. split; [exact Hp|]. constructor; [exact Hc|exact IH].
Qed.
Lemma join_map : forall (f : ascii -> ascii) c ps, map f (join c ps) = join (f c) (map (map f) ps).
Proof.
  intros f c ps. induction ps as [|p ps IH]; [reflexivity|]. destruct ps as [|q ps]; [reflexivity|].
  change (join c (p :: q :: ps)) with (p ++ c :: join c (q :: ps)).
  rewrite map_app. cbn [map]. rewrite IH. reflexivity.
Qed.

(** For a version tag of numbers, dots and a suffix that does not begin with a
    digit, a dot or an underscore, the file read is the one with the same
    numbers, to which make_changelog gives that version. *)
Definition plain_suffix (s : text) : Prop :=
  match s with [] => True | c :: _ => is_digit c = false /\ c <> "."%char /\ c <> "_"%char end.
Lemma numbers_join : forall ds, ds <> [] -> Forall digits ds -> join "_" ds <> [] /\
  Forall (fun c => is_digit c = true \/ c = "_"%char) (join "_" ds).
Proof.
  intros ds N F. split.
  - destruct F as [|d ds [Hd _] _]; [congruence|]. destruct d; [congruence|]. destruct ds; discriminate.
  - apply join_chars; [now right|]. eapply Forall_impl; [|exact F]. intros d [_ Hd].
    eapply Forall_impl; [|exact Hd]. intros c Hc. now left.
Qed.
Theorem c63_file : forall ds suffix, ds <> [] -> Forall digits ds -> plain_suffix suffix ->
  changelog_file (join "." ds ++ suffix) = "v"%char :: join "_" ds ++ txt ".md" /\
  file_version "_" (changelog_file (join "." ds ++ suffix)) = Some (map (value 0) ds).
Proof.
  intros ds suffix N F S.
  set (dot := fun c => if Ascii.eqb c "." then "_"%char else c).
  assert (Dd : forall d, digits d -> map dot d = d).
  { intros d [_ Hd]. clear -Hd. induction Hd as [|c d E Hd IH]; [reflexivity|]. cbn [map]. rewrite IH. unfold dot.
    destruct (digit_not c E) as (_ & _ & _ & -> & _). reflexivity. }
  assert (E : changelog_file (join "." ds ++ suffix) = "v"%char :: join "_" ds ++ txt ".md").
  { unfold changelog_file. fold dot. f_equal. f_equal. rewrite map_app, join_map.
    replace (map (map dot) ds) with ds
      by (clear -F Dd; induction F as [|d ds Hd F IH]; [reflexivity|]; cbn [map]; now rewrite Dd, <- IH).
    change (dot "."%char) with "_"%char. rewrite takewhile_app.
    - replace (takewhile _ (map dot suffix)) with (@nil ascii); [apply app_nil_r|].
      destruct suffix as [|c suffix]; [reflexivity|]. destruct S as (S1 & S2 & S3). cbn [map takewhile].
      unfold dot at 1 2. destruct (Ascii.eqb_spec c "."); [congruence|]. destruct (Ascii.eqb_spec c "_"); [congruence|].
      now rewrite S1.
    - eapply Forall_impl; [|apply (numbers_join ds N F)]. intros c [H| ->]; [rewrite H; apply orb_true_r|reflexivity]. }
  split; [exact E|]. rewrite E. unfold file_version.
  destruct (numbers_join ds N F) as [Nj Fj].
  assert (St : stem ("v"%char :: join "_" ds ++ txt ".md") = "v"%char :: join "_" ds).
  { apply (stem_md ("v"%char :: join "_" ds)); [discriminate|]. constructor; [reflexivity|].
    eapply Forall_impl; [|exact Fj]. intros c [H| ->]; [now apply digit_not in H|reflexivity]. }
  rewrite St. cbn [dropwhile]. replace (is_alpha "v") with true by reflexivity. rewrite dropwhile_none.
  2: { eapply Forall_impl; [|exact Fj]. intros c [H| ->]; [now apply digit_not in H|reflexivity]. }
  rewrite split_join; [|exact N|].
  - clear -F. induction F as [|d ds Hd F IH]; [reflexivity|]. cbn [map all_some]. rewrite py_int_digits by exact Hd. now rewrite IH.
  - eapply Forall_impl; [|exact F]. intros d [_ Hd]. eapply Forall_impl; [|exact Hd]. intros c Hc. now apply digit_not in Hc.
Qed.
Print Assumptions c63_file.

(** What is printed is the file without its first line; nothing is lost and
    nothing else is read. *)
Theorem c63_extract : forall dir ds suffix title rows, ds <> [] -> Forall digits ds -> plain_suffix suffix ->
  dir ("v"%char :: join "_" ds ++ txt ".md") = Some (title :: rows) ->
  extract dir (join "." ds ++ suffix) = Ok rows.
Proof.
  intros dir ds suffix title rows N F S D. unfold extract.
  destruct (c63_file ds suffix N F S) as [-> _]. now rewrite D.
Qed.
Print Assumptions c63_extract.
Example c63_example :
  let dir := fun f => if list_eq_dec ascii_dec f (txt "v2_2_0.md") then Some (map txt ["# v2.2.0"; "- news"]%string) else None in
  Forall digits (map txt ["2"; "2"; "0"]%string) /\ plain_suffix (txt "b1") /\ txt "2.2.0b1" = join "." (map txt ["2"; "2"; "0"]%string) ++ txt "b1" /\
  extract dir (txt "2.2.0b1") = Ok [txt "- news"] /\ file_version "_" (txt "v2_2_0.md") = Some [2; 2; 0]%Z.
Proof.
  cbv zeta. split.
  - repeat constructor; discriminate.
  - split; [repeat split; discriminate|]. repeat split.
Qed.
(** A suffix after a dot, as in development versions, is not left out
    completely: the dot becomes an underscore, and the file of the version is
    not found. *)
Theorem c63_dev_suffix_refuted : exists dir ds suffix rows, ds <> [] /\ Forall digits ds /\
  dir ("v"%char :: join "_" ds ++ txt ".md") = Some rows /\
  changelog_file (join "." ds ++ suffix) = txt "v2_2_0_.md" /\ extract dir (join "." ds ++ suffix) = Err (OtherError 2).
Proof.
  exists (fun f => if list_eq_dec ascii_dec f (txt "v2_2_0.md") then Some [txt "# v2.2.0"] else None),
    (map txt ["2"; "2"; "0"]%string), (txt ".dev1"), [txt "# v2.2.0"].
  split; [discriminate|]. split; [repeat constructor; discriminate|]. repeat split.
Qed.
Print Assumptions c63_dev_suffix_refuted.
