(** C101: what widgets share, where they are, what is in the files of the user. *)
From Coq Require Import String Ascii List Bool ZArith Arith Lia Reals Lra Permutation.
Import ListNotations.
From Verif Require Import Base Py Dict Changelog_Model Changelog_Props Session_Model Utils_Model Report_Model Widget_Model.
Local Open Scope list_scope.
Local Open Scope nat_scope.

(** ** Shared data *)

(** [assigned h g name v]: the last assignment to [name] in the history [h] by a widget
    whose parent is [g] was of [v]. *)
Inductive assigned {V} (parent : nat -> option nat) (g : nat) (name : string) : list (nat * string * option V) -> option V -> Prop :=
| assigned_last h w v : get_root parent w = g -> assigned parent g name (h ++ [(w, name, v)]) v
| assigned_before h w n v v' : get_root parent w <> g \/ n <> name -> assigned parent g name h v ->
    assigned parent g name (h ++ [(w, n, v')]) v.

(** A widget whose parent is [g] reads what the last of the widgets with that parent
    assigned, whichever it was; before that, what was there. *)
Theorem c101_shared {V} parent (s : attrs V) (h : list (nat * string * option V)) w name v :
  let s' := fold_left (fun s e => let '(w, n, v) := e in fset parent s w n v) h s in
  (assigned parent (get_root parent w) name h v -> fget parent s' w name = v) /\
  ((forall w' v', In (w', name, v') h -> get_root parent w' <> get_root parent w) -> fget parent s' w name = fget parent s w name).
Proof.
  assert (Hstep : forall (s : attrs V) w' n v', fget parent (fset parent s w' n v') w name =
    if Nat.eqb (get_root parent w') (get_root parent w) && String.eqb n name then v' else fget parent s w name) by reflexivity.
  cbv zeta. split.
  - intros H. remember (get_root parent w) as g eqn:Eg. induction H as [h w' v' H|h w' n v v' H Ha IH]; rewrite fold_left_app; cbn [fold_left]; rewrite Hstep.
    + rewrite H, Nat.eqb_refl, String.eqb_refl. reflexivity.
    + destruct (Nat.eqb_spec (get_root parent w') g) as [E|E]; [|exact IH].
      destruct (String.eqb_spec n name) as [E'|E']; [|exact IH]. destruct H; congruence.
  - induction h as [|[[w' n] v'] h IH] using rev_ind; intros H; [reflexivity|].
    rewrite fold_left_app. cbn [fold_left]. rewrite Hstep.
    destruct (Nat.eqb_spec (get_root parent w') (get_root parent w)) as [E|E].
    + destruct (String.eqb_spec n name) as [E'|E'].
      * subst n. exfalso. apply (H w' v'); [apply in_or_app; right; left; reflexivity|exact E].
      * apply IH. intros w2 v2 Hin. apply (H w2 v2). apply in_or_app. left. exact Hin.
    + apply IH. intros w2 v2 Hin. apply (H w2 v2). apply in_or_app. left. exact Hin.
Qed.
Print Assumptions c101_shared.

(** "Shared via the root widget" is not so of widgets inside a tab: what the tab (2, whose
    parent is the notebook 1) assigns is not what a button (3) in it reads. *)
Theorem c101_root_refuted : exists (parent : nat -> option nat) w w' (s : attrs nat) v,
  parent w' = Some w /\ parent w = Some 1 /\ parent 1 = Some 0 /\ parent 0 = None /\
  fget parent (fset parent s w "audio_sr" (Some v)) w "audio_sr" = Some v /\
  fget parent (fset parent s w "audio_sr" (Some v)) w' "audio_sr" = None.
Proof.
  exists (fun w => match w with 0 => None | S p => Some p end), 2, 3, (fun _ _ => None), 44100. repeat split; reflexivity.
Qed.
Print Assumptions c101_root_refuted.

Lemma new_class_get l : forall (d : dict member) n,
  dget n (fold_left (fun d pn => if dmem pn d then d else dset pn (RootProperty pn) d) l d) =
  match dget n d with Some m => Some m | None => if existsb (String.eqb n) l then Some (RootProperty n) else None end.
Proof.
  induction l as [|pn l IH]; intros d n; cbn [fold_left existsb]; [destruct (dget n d); reflexivity|].
  rewrite IH. destruct (dmem pn d) eqn:E.
  - destruct (dget n d) eqn:E1; [reflexivity|]. destruct (String.eqb_spec n pn) as [->|H]; [|reflexivity].
    rewrite dmem_dget, E1 in E. discriminate.
  - rewrite dget_dset. destruct (String.eqb_spec n pn) as [->|H].
    + rewrite String.eqb_refl. rewrite dmem_dget in E. destruct (dget pn d); [discriminate|]. cbn. reflexivity.
    + destruct (String.eqb_spec pn n) as [->|H']; [congruence|]. destruct (dget n d); reflexivity.
Qed.

(** Every name of the list that a class does not define is a property of the parent;
    every other attribute is what the class defines.  A class that inherits from the
    mixin and defines none of the names has all of them. *)
Theorem c101_properties (d : dict member) l n : dget root_key d = Some (Names l) ->
  (In n l -> dget n d = None -> dget n (new_class d) = Some (RootProperty n)) /\
  (forall m, dget n d = Some m -> dget n (new_class d) = Some m) /\
  (~ In n l -> dget n (new_class d) = dget n d).
Proof.
  intros H. unfold new_class. rewrite H. split; [|split].
  - intros Hin E. rewrite new_class_get, E.
    replace (existsb (String.eqb n) l) with true; [reflexivity|]. symmetry. apply existsb_exists. exists n. split; [exact Hin|apply String.eqb_refl].
  - intros m E. rewrite new_class_get, E. reflexivity.
  - intros Hn. rewrite new_class_get. destruct (dget n d); [reflexivity|].
    destruct (existsb (String.eqb n) l) eqn:E; [|reflexivity]. apply existsb_exists in E as (x & Hx & E).
    apply String.eqb_eq in E. subst x. contradiction.
Qed.
Print Assumptions c101_properties.
Theorem c101_inherited (d : dict member) n : dget root_key d = None -> dget n d = None -> In n root_properties ->
  lookup [new_class d; new_class data_on_root] n = Some (RootProperty n).
Proof.
  intros Hk Hn Hin. unfold new_class at 1. rewrite Hk. cbn [lookup]. rewrite Hn.
  assert (H : dget n (new_class data_on_root) = Some (RootProperty n)).
  { assert (Ha : forallb (fun n => match dget n (new_class data_on_root) with Some (RootProperty m) => String.eqb m n | _ => false end) root_properties = true) by (vm_compute; reflexivity).
    rewrite forallb_forall in Ha. specialize (Ha n Hin). destruct (dget n (new_class data_on_root)) as [[m| |]|]; try discriminate.
    apply String.eqb_eq in Ha. subst m. reflexivity. }
  rewrite H. reflexivity.
Qed.
Print Assumptions c101_inherited.

(** ** Widgets inside widgets *)

(** [inside u t]: [u] is [t] or a widget in it, at any depth. *)
Inductive inside : tree -> tree -> Prop :=
| inside_self t : inside t t
| inside_child u v w l : In v l -> inside u v -> inside u (Node w l).
Definition root_of (t : tree) : nat := match t with Node w _ => w end.
Fixpoint size (t : tree) : nat := match t with Node _ l => S (list_sum (map size l)) end.

Lemma children_inside u : forall t, inside u t -> exists l1 l2, widget_children t true = l1 ++ widget_children u true ++ l2.
Proof.
  intros t H. induction H as [t|u v w l Hin H (l1 & l2 & IH)].
  - exists [], []. rewrite app_nil_r. reflexivity.
  - apply in_split in Hin as (a & b & ->). cbn [widget_children]. rewrite flat_map_app. cbn [flat_map]. rewrite IH.
    exists ([w] ++ flat_map (fun v => widget_children v true) a ++ l1), (l2 ++ flat_map (fun v => widget_children v true) b).
    rewrite <- !app_assoc. reflexivity.
Qed.
Fixpoint children_only (t : tree) : forall w, In w (widget_children t true) -> exists u, inside u t /\ root_of u = w.
Proof.
  destruct t as [x l]. intros w [<-|H]; [exists (Node x l); split; [constructor|reflexivity]|].
  assert (Hl : exists v, In v l /\ exists u, inside u v /\ root_of u = w).
  { cbn [app] in H. revert H. induction l as [|v l IH]; intros H; [destruct H|].
    cbn [flat_map] in H. apply in_app_or in H as [H|H].
    - exists v. split; [left; reflexivity|]. exact (children_only v w H).
    - destruct (IH H) as (v' & Hv & Hu). exists v'. split; [right; exact Hv|exact Hu]. }
  destruct Hl as (v & Hv & u & Hu & E). exists u. split; [apply (inside_child u v); assumption|exact E].
Qed.
Fixpoint children_size (t : tree) : List.length (widget_children t true) = size t.
Proof.
  destruct t as [x l]. cbn [widget_children size app List.length]. f_equal.
  induction l as [|v l IH]; [reflexivity|]. cbn [flat_map map list_sum fold_right]. rewrite app_length, children_size.
  f_equal. exact IH.
Qed.

(** All widgets inside a widget are listed, no others, none twice; each is followed by
    those inside it.  The widget itself comes first if it is asked for and not at all
    otherwise. *)
Theorem c101_children w l :
  (forall b, widget_children (Node w l) b = (if b then [w] else []) ++ widget_children (Node w l) false) /\
  (forall v, In v (widget_children (Node w l) false) <-> exists u t, In t l /\ inside u t /\ root_of u = v) /\
  S (List.length (widget_children (Node w l) false)) = size (Node w l) /\
  (forall u t, In t l -> inside u t -> exists l1 l2,
     widget_children (Node w l) false = l1 ++ [root_of u] ++ widget_children u false ++ l2).
Proof.
  split; [|split; [|split]].
  - intros b. reflexivity.
  - intros v. cbn [widget_children app]. rewrite in_flat_map. split.
    + intros (t & Ht & H). apply children_only in H as (u & Hu & E). exists u, t. auto.
    + intros (u & t & Ht & Hu & E). exists t. split; [exact Ht|]. destruct (children_inside u t Hu) as (l1 & l2 & ->).
      apply in_or_app. right. apply in_or_app. left. destruct u as [x m]. left. exact E.
  - exact (children_size (Node w l)).
  - intros u t Ht Hu. destruct (children_inside u t Hu) as (l1 & l2 & E). apply in_split in Ht as (a & b & ->).
    cbn [widget_children app]. rewrite flat_map_app. cbn [flat_map]. rewrite E.
    exists (flat_map (fun v => widget_children v true) a ++ l1), (l2 ++ flat_map (fun v => widget_children v true) b).
    rewrite <- !app_assoc. destruct u as [x m]. reflexivity.
Qed.
Print Assumptions c101_children.

(** A colour that is none is replaced by the default; with a key there is an entry exactly
    if there is a colour. *)
Theorem c101_color {C} (is_color : C -> bool) style default key :
  (is_color style = true -> root_color is_color style default = Some style /\ root_color_key is_color style default key = [(key, style)]) /\
  (is_color style = false -> root_color is_color style default = default /\
     (forall k c, In (k, c) (root_color_key is_color style default key) <-> k = key /\ default = Some c)).
Proof.
  unfold root_color_key, root_color. split; intros ->; split; try reflexivity.
  intros k c. destruct default as [x|]; cbn [In]; [|intuition congruence]. split.
  - intros [H|[]]. injection H as <- <-. auto.
  - intros (-> & H). injection H as ->. left. reflexivity.
Qed.
Print Assumptions c101_color.

(** ** Responsive rows and columns *)

(** Line [i] is asked for. *)
Definition asked (it : option lines) (i : Z) : Prop :=
  match it with None => False | Some (Count n) => (0 <= i < n)%Z | Some (Indices l) => In i l end.

Lemma configure_all s row l r i :
  fold_left (fun s i => configure s row i 1%Z) l s r i = if Bool.eqb r row && existsb (Z.eqb i) l then 1%Z else s r i.
Proof.
  revert s. induction l as [|j l IH]; intros s; cbn [fold_left existsb]; [rewrite andb_false_r; reflexivity|].
  rewrite IH. unfold configure. rewrite (Z.eqb_sym j i). destruct (Bool.eqb r row), (i =? j)%Z, (existsb (Z.eqb i) l); reflexivity.
Qed.
Lemma indices_asked it i : existsb (Z.eqb i) (indices it) = true <-> asked (Some it) i.
Proof.
  rewrite existsb_exists. split.
  - intros (j & Hj & E). apply Z.eqb_eq in E. subst j. destruct it as [n|l]; cbn in *; [|exact Hj].
    apply in_map_iff in Hj as (k & <- & Hk). apply in_seq in Hk. lia.
  - intros H. exists i. split; [|apply Z.eqb_refl]. destruct it as [n|l]; cbn in *; [|exact H].
    apply in_map_iff. exists (Z.to_nat i). split; [lia|]. apply in_seq. lia.
Qed.

(** The lines that are asked for have the weight 1, the others the one they had.  A widget
    without rows (or columns) is warned of, and its columns (or rows) are still set. *)
Theorem c101_responsive has rows cols s :
  let it row := if row : bool then rows else cols in
  (forall row i, has row = true -> asked (it row) i -> fst (responsive has rows cols s) row i = 1%Z) /\
  (forall row i, has row = false \/ ~ asked (it row) i -> fst (responsive has rows cols s) row i = s row i) /\
  (forall row, In row (snd (responsive has rows cols s)) <-> has row = false).
Proof.
  assert (Hone : forall (row : bool) o s r i, (match o with None => s | Some it => fold_left (fun s i => configure s row i 1%Z) (indices it) s end : weights) r i =
    if Bool.eqb r row && (match o with None => false | Some it => existsb (Z.eqb i) (indices it) end) then 1%Z else s r i).
  { intros row [it|] s0 r i; [apply configure_all|]. rewrite andb_false_r. reflexivity. }
  assert (Hask : forall o i, (match o with None => false | Some it => existsb (Z.eqb i) (indices it) end) = true <-> asked o i).
  { intros [it|] i; [apply indices_asked|]. cbn. intuition discriminate. }
  assert (E : responsive has rows cols s =
    let s1 := if has true then match rows with None => s | Some it => fold_left (fun s i => configure s true i 1%Z) (indices it) s end else s in
    let s2 := if has false then match cols with None => s1 | Some it => fold_left (fun s i => configure s false i 1%Z) (indices it) s1 end else s1 in
    (s2, (if has true then [] else [true]) ++ (if has false then [] else [false]))).
  { unfold responsive. cbn [fold_left]. destruct (has true), (has false), rows, cols; reflexivity. }
  rewrite E. clear E. cbv zeta. cbn [fst snd]. split; [|split].
  - intros row i Hh Ha. destruct row; rewrite ?Hh.
    + apply Hask in Ha. destruct (has false).
      * rewrite Hone. cbn [Bool.eqb andb]. rewrite Hone. cbn [Bool.eqb andb]. rewrite Ha. reflexivity.
      * rewrite Hone. cbn [Bool.eqb andb]. rewrite Ha. reflexivity.
    + apply Hask in Ha. rewrite Hone. cbn [Bool.eqb andb]. rewrite Ha. reflexivity.
  - intros row i H. destruct row.
    + assert (H1 : has true = false \/ (match rows with None => false | Some it => existsb (Z.eqb i) (indices it) end) = false).
      { destruct H as [H|H]; [left; exact H|right]. apply not_true_is_false. intros Hc. apply H. apply Hask. exact Hc. }
      assert (H2 : (if has true then match rows with None => s | Some it => fold_left (fun s i => configure s true i 1%Z) (indices it) s end else s) true i = s true i).
      { destruct (has true); [|reflexivity]. rewrite Hone. destruct H1 as [H1|H1]; [discriminate|]. cbn [Bool.eqb andb]. rewrite H1. reflexivity. }
      destruct (has false); [rewrite Hone|]; cbn [Bool.eqb andb]; exact H2.
    + assert (H1 : has false = false \/ (match cols with None => false | Some it => existsb (Z.eqb i) (indices it) end) = false).
      { destruct H as [H|H]; [left; exact H|right]. apply not_true_is_false. intros Hc. apply H. apply Hask. exact Hc. }
      assert (H2 : (if has true then match rows with None => s | Some it => fold_left (fun s i => configure s true i 1%Z) (indices it) s end else s) false i = s false i).
      { destruct (has true); [|reflexivity]. rewrite Hone. reflexivity. }
      destruct (has false); [|exact H2]. rewrite Hone. destruct H1 as [H1|H1]; [discriminate|]. rewrite H1, andb_false_r. exact H2.
  - intros [|]; destruct (has true), (has false); cbn; intuition congruence.
Qed.
Print Assumptions c101_responsive.

(** ** Classes made once *)

(** The first of the modules that has the name, in their order. *)
Definition found (modules : list (string -> option obj)) (name : string) (o : obj) : Prop :=
  exists before m after, modules = before ++ m :: after /\ (forall m', In m' before -> m' name = None) /\ m name = Some o.

Lemma first_module_found modules name :
  match first_module modules name with
  | Some o => found modules name o
  | None => forall m, In m modules -> m name = None
  end.
Proof.
  induction modules as [|m ms IH]; cbn [first_module]; [intros m []|].
  destruct (m name) as [o|] eqn:E.
  - exists [], m, ms. split; [reflexivity|]. split; [intros m' []|exact E].
  - destruct (first_module ms name) as [o|].
    + destruct IH as (b & m' & a & -> & Hb & Hm). exists (m :: b), m', a. split; [reflexivity|]. split; [|exact Hm].
      intros x [<-|Hx]; [exact E|apply Hb; exact Hx].
    + intros x [<-|Hx]; [exact E|apply IH; exact Hx].
Qed.

(** Caches that accesses can lead to: children are distinct and were made before. *)
Definition cache_ok (s : wrapped) : Prop :=
  NoDup (map fst (w_cache s)) /\ NoDup (map snd (w_cache s)) /\ forall c d, In (c, d) (w_cache s) -> d < w_fresh s.
Lemma cached_in cache c d : cached cache c = Some d -> In (c, d) cache.
Proof.
  unfold cached. destruct (find _ cache) as [[c' d']|] eqn:E; [|discriminate]. intros H. injection H as ->.
  apply find_some in E as [H E]. cbn in E. apply Nat.eqb_eq in E. subst c'. exact H.
Qed.
Lemma cached_none cache c : cached cache c = None -> forall d, ~ In (c, d) cache.
Proof.
  unfold cached. destruct (find _ cache) as [[c' d']|] eqn:E; [discriminate|]. intros _ d Hin.
  apply (find_none _ _ E) in Hin. cbn in Hin. rewrite Nat.eqb_refl in Hin. discriminate.
Qed.
Lemma in_cached cache c d : NoDup (map fst cache) -> In (c, d) cache -> cached cache c = Some d.
Proof.
  intros Hn Hin. destruct (cached cache c) as [d'|] eqn:E; [|exfalso; exact (cached_none _ _ E d Hin)].
  apply cached_in in E. f_equal. revert Hn Hin E. induction cache as [|[c0 d0] l IH]; intros Hn H1 H2; [destruct H1|].
  cbn [map fst] in Hn. apply NoDup_cons_iff in Hn as [Hn0 Hn].
  destruct H1 as [H1|H1], H2 as [H2|H2].
  - congruence.
  - injection H1 as -> ->. exfalso. apply Hn0. apply (in_map fst) in H2. exact H2.
  - injection H2 as -> ->. exfalso. apply Hn0. apply (in_map fst) in H1. exact H1.
  - apply IH; assumption.
Qed.
Lemma getattr_ok modules final name s : cache_ok s ->
  let '(r, s') := module_getattr modules final name s in
  cache_ok s' /\ (forall c d, In (c, d) (w_cache s) -> In (c, d) (w_cache s')) /\
  (forall d, r = Ok (Class d) -> exists c, first_module modules name = Some (Class c) /\ In (c, d) (w_cache s')).
Proof.
  intros (H1 & H2 & H3). unfold module_getattr. destruct (first_module modules name) as [[c|v]|].
  - destruct (cached (w_cache s) c) as [d|] eqn:E.
    + split; [split; [|split]; assumption|]. split; [auto|]. intros d' H. injection H as <-. exists c. split; [reflexivity|].
      apply cached_in. exact E.
    + destruct (final c).
      * split; [split; [|split]; assumption|]. split; [auto|]. intros d' H. discriminate.
      * split; [split; [|split]|split].
        -- cbn. constructor; [|exact H1]. intros Hin. apply in_map_iff in Hin as ([c' d'] & E' & Hin). cbn in E'. subst c'.
           exact (cached_none _ _ E d' Hin).
        -- cbn. constructor; [|exact H2]. intros Hin. apply in_map_iff in Hin as ([c' d'] & E' & Hin). cbn in E'. subst d'.
           apply H3 in Hin. lia.
        -- cbn. intros c' d' [Hin|Hin]; [injection Hin as <- <-; lia|]. apply H3 in Hin. lia.
        -- intros c' d' Hin. right. exact Hin.
        -- intros d' H. injection H as <-. exists c. split; [reflexivity|left; reflexivity].
  - split; [split; [|split]; assumption|]. split; [auto|]. intros d' H. discriminate.
  - split; [split; [|split]; assumption|]. split; [auto|]. intros d' H. discriminate.
Qed.
Lemma accesses_ok modules final names : forall s, cache_ok s ->
  let '(rs, s') := accesses modules final names s in
  cache_ok s' /\ (forall c d, In (c, d) (w_cache s) -> In (c, d) (w_cache s')) /\
  (forall i d, nth_error rs i = Some (Ok (Class d)) ->
     exists n c, nth_error names i = Some n /\ first_module modules n = Some (Class c) /\ In (c, d) (w_cache s')).
Proof.
  induction names as [|n names IH]; intros s Hs; cbn [accesses].
  - split; [exact Hs|]. split; [auto|]. intros [|i] d H; discriminate.
  - pose proof (getattr_ok modules final n s Hs) as Hg. destruct (module_getattr modules final n s) as [r s1].
    destruct Hg as (Hs1 & Hm1 & Hr1). specialize (IH s1 Hs1). destruct (accesses modules final names s1) as [rs s2].
    destruct IH as (Hs2 & Hm2 & Hr2). split; [exact Hs2|]. split; [intros c d H; apply Hm2, Hm1, H|].
    intros [|i] d H.
    + cbn in H. injection H as H. destruct (Hr1 d H) as (c & Hc & Hin). exists n, c. split; [reflexivity|]. split; [exact Hc|]. apply Hm2. exact Hin.
    + cbn in H. destruct (Hr2 i d H) as (n' & c & Hn & Hc & Hin). exists n', c. auto.
Qed.

Lemma getattr_new modules final name s d : cache_ok s -> module_getattr modules final name s = (Ok (Class d), snd (module_getattr modules final name s)) ->
  forall lo, (forall c e, In (c, e) (w_cache s) -> lo <= e) -> lo <= w_fresh s ->
  lo <= d /\ (forall c e, In (c, e) (w_cache (snd (module_getattr modules final name s))) -> lo <= e).
Proof.
  intros Hs E lo Hlo Hf. unfold module_getattr in *. destruct (first_module modules name) as [[c|v]|]; try discriminate.
  destruct (cached (w_cache s) c) as [d0|] eqn:Ec.
  - injection E as ->. split; [apply (Hlo c), cached_in, Ec|exact Hlo].
  - destruct (final c); [discriminate|]. injection E as <-. split; [exact Hf|]. cbn. intros c' e [H|H]; [injection H as <- <-; exact Hf|eapply Hlo; exact H].
Qed.
Lemma getattr_lo modules final name s lo : cache_ok s -> (forall c e, In (c, e) (w_cache s) -> lo <= e) -> lo <= w_fresh s ->
  (forall c e, In (c, e) (w_cache (snd (module_getattr modules final name s))) -> lo <= e) /\ lo <= w_fresh (snd (module_getattr modules final name s)).
Proof.
  intros Hs Hlo Hf. unfold module_getattr. destruct (first_module modules name) as [[c|v]|]; try (split; assumption).
  destruct (cached (w_cache s) c); [split; assumption|]. destruct (final c); [split; assumption|]. cbn. split; [|lia].
  intros c' e [H|H]; [injection H as <- <-; exact Hf|eapply Hlo; exact H].
Qed.
Lemma accesses_lo modules final lo names : forall s, cache_ok s -> (forall c e, In (c, e) (w_cache s) -> lo <= e) -> lo <= w_fresh s ->
  forall c e, In (c, e) (w_cache (snd (accesses modules final names s))) -> lo <= e.
Proof.
  induction names as [|n names IH]; intros s Hs Hlo Hf; cbn [accesses]; [exact Hlo|].
  pose proof (getattr_ok modules final n s Hs) as Hg. destruct (getattr_lo modules final n s lo Hs Hlo Hf) as [H1 H2].
  destruct (module_getattr modules final n s) as [r s1]. cbn [snd] in H1, H2. destruct Hg as (Hs1 & _ & _).
  specialize (IH s1 Hs1 H1 H2). destruct (accesses modules final names s1) as [rs s2]. exact IH.
Qed.

(** [tk.Frame] is always the same class: two accesses (of the same name, or of two names of
    one class) give the same class, accesses of different classes different ones, and no
    class that there was before ([w_fresh]).  What is no class is given as it is. *)
Theorem c101_classes modules final names fresh i j a b c c' d d' :
  let rs := fst (accesses modules final names (mkWrapped [] fresh)) in
  nth_error names i = Some a -> nth_error names j = Some b ->
  found modules a (Class c) -> found modules b (Class c') ->
  nth_error rs i = Some (Ok (Class d)) -> nth_error rs j = Some (Ok (Class d')) ->
  (c = c' <-> d = d') /\ fresh <= d.
Proof.
  assert (H0 : cache_ok (mkWrapped [] fresh)) by (split; [constructor|split; [constructor|intros ? ? []]]).
  assert (HL : forall c e, In (c, e) (w_cache (snd (accesses modules final names (mkWrapped [] fresh)))) -> fresh <= e).
  { apply accesses_lo; [exact H0|intros ? ? []|apply Nat.le_refl]. }
  pose proof (accesses_ok modules final names _ H0) as H. destruct (accesses modules final names (mkWrapped [] fresh)) as [rs s].
  cbv zeta. cbn [fst snd] in *. destruct H as ((N1 & N2 & _) & _ & Hr). intros Ha Hb Fa Fb Hi Hj.
  assert (Hf : forall n x, found modules n (Class x) -> first_module modules n = Some (Class x)).
  { clear. intros n x (bf & m & af & -> & Hb & Hm). induction bf as [|m0 bf IH]; cbn [app first_module]; [rewrite Hm; reflexivity|].
    rewrite (Hb m0) by (left; reflexivity). apply IH. intros m' H. apply Hb. right. exact H. }
  destruct (Hr i d Hi) as (n1 & c1 & E1 & F1 & I1). rewrite Ha in E1. injection E1 as <-. rewrite (Hf _ _ Fa) in F1. injection F1 as <-.
  destruct (Hr j d' Hj) as (n2 & c2 & E2 & F2 & I2). rewrite Hb in E2. injection E2 as <-. rewrite (Hf _ _ Fb) in F2. injection F2 as <-.
  split; [|exact (HL _ _ I1)]. split.
  - intros <-. apply (in_cached _ _ _ N1) in I1. apply (in_cached _ _ _ N1) in I2. congruence.
  - intros <-. clear - N2 I1 I2. induction (w_cache s) as [|[x y] l IH]; [destruct I1|].
    cbn [map snd] in N2. apply NoDup_cons_iff in N2 as [N0 N2]. destruct I1 as [I1|I1], I2 as [I2|I2].
    + congruence.
    + injection I1 as -> ->. exfalso. apply N0. apply (in_map snd) in I2. exact I2.
    + injection I2 as -> ->. exfalso. apply N0. apply (in_map snd) in I1. exact I1.
    + apply IH; assumption.
Qed.
Print Assumptions c101_classes.

Theorem c101_attribute modules final name s :
  (forall v, found modules name (Value v) -> module_getattr modules final name s = (Ok (Value v), s)) /\
  ((forall m, In m modules -> m name = None) -> module_getattr modules final name s = (Err AttributeError, s)) /\
  (forall c, found modules name (Class c) -> final c = false -> exists d, fst (module_getattr modules final name s) = Ok (Class d)) /\
  (cache_ok s -> forall d lo, fst (module_getattr modules final name s) = Ok (Class d) ->
     (forall c e, In (c, e) (w_cache s) -> lo <= e) -> lo <= w_fresh s -> lo <= d).
Proof.
  pose proof (first_module_found modules name) as F.
  assert (Hf : forall x, found modules name x -> first_module modules name = Some x).
  { clear. intros x (bf & m & af & -> & Hb & Hm). induction bf as [|m0 bf IH]; cbn [app first_module]; [rewrite Hm; reflexivity|].
    rewrite (Hb m0) by (left; reflexivity). apply IH. intros m' H. apply Hb. right. exact H. }
  split; [|split; [|split]].
  - intros v Hv. unfold module_getattr. rewrite (Hf _ Hv). reflexivity.
  - intros H. unfold module_getattr. destruct (first_module modules name) as [o|]; [|reflexivity].
    destruct F as (b & m & a & -> & _ & Hm). rewrite H in Hm; [discriminate|]. apply in_or_app. right. left. reflexivity.
  - intros c Hc Hfin. unfold module_getattr. rewrite (Hf _ Hc). destruct (cached (w_cache s) c) as [d|]; [exists d; reflexivity|].
    rewrite Hfin. exists (w_fresh s). reflexivity.
  - intros Hs d lo E Hlo Hw. apply (getattr_new modules final name s d Hs); [|exact Hlo|exact Hw].
    rewrite <- E. destruct (module_getattr modules final name s); reflexivity.
Qed.
Print Assumptions c101_attribute.

(** ** The grid of the settings *)

Definition covers (c : cell) (row col : nat) : Prop := g_row c = row /\ g_col c <= col < g_col c + g_span c.
Definition part_eqb (a b : part) : bool := match a, b with PLabel, PLabel | PSpacer, PSpacer | PEntry, PEntry => true | _, _ => false end.
(** Cells of the setting [s] in row [i]. *)
Definition row_cells (i : nat) (s : string * bool) : list cell :=
  [mkCell (fst s) PLabel i 0 1; mkCell (fst s) PSpacer i 1 (if snd s then 2 else 1)] ++ (if snd s then [] else [mkCell (fst s) PEntry i 2 1]).

Lemma grid_rows specs : NoDup (map fst specs) ->
  fst (settings_grid specs) = specs /\
  snd (settings_grid specs) = flat_map (fun i => row_cells i (nth i specs (""%string, true))) (seq 0 (List.length specs)).
Proof.
  unfold settings_grid. induction specs as [|[n b] specs IH] using rev_ind; intros Hn; [split; reflexivity|].
  rewrite map_app in Hn. cbn [map fst] in Hn. apply NoDup_remove in Hn as [Hn Hnot]. rewrite !app_nil_r in *.
  destruct (IH Hn) as [E1 E2]. rewrite fold_left_app. cbn [fold_left].
  destruct (fold_left add_setting specs ([], [])) as [st grid]. cbn [fst snd] in E1, E2. subst st grid.
  unfold add_setting. cbn [fst snd]. split.
  - apply dset_absent. apply dget_none. exact Hnot.
  - rewrite app_length. cbn [List.length]. rewrite Nat.add_1_r, seq_S, flat_map_app. cbn [flat_map Nat.add]. rewrite app_nil_r.
    f_equal.
    + assert (Hx : forall l, (forall i, In i l -> i < List.length specs) ->
        flat_map (fun i => row_cells i (nth i specs (""%string, true))) l = flat_map (fun i => row_cells i (nth i (specs ++ [(n, b)]) (""%string, true))) l).
      { induction l as [|i l IHl]; intros Hl; [reflexivity|]. cbn [flat_map].
        f_equal; [rewrite app_nth1 by (apply Hl; left; reflexivity); reflexivity|]. apply IHl. intros j Hj. apply Hl. right. exact Hj. }
      apply Hx. intros i Hi. apply in_seq in Hi. lia.
    + rewrite app_nth2 by lia. rewrite Nat.sub_diag. cbn [nth]. unfold row_cells. cbn [fst snd]. reflexivity.
Qed.

(** Settings with different names: setting [i] is in row [i], its label left, its entry,
    if it has one, right; no two widgets of the grid cover the same place; every row is
    responsive, and so is the column of every entry. *)
Theorem c101_grid specs : NoDup (map fst specs) ->
  let grid := snd (settings_grid specs) in
  (forall i n b, nth_error specs i = Some (n, b) ->
     In (mkCell n PLabel i 0 1) grid /\ (b = false -> In (mkCell n PEntry i 2 1) grid) /\
     (forall c, In c grid -> g_name c = n -> g_row c = i /\ (b = true -> g_part c <> PEntry))) /\
  (forall i j c c' row col, nth_error grid i = Some c -> nth_error grid j = Some c' ->
     covers c row col -> covers c' row col -> i = j) /\
  (forall c has s, In c grid -> has true = true -> has false = true -> g_part c <> PSpacer ->
     let w := fst (responsive has (fst (settings_lines specs)) (snd (settings_lines specs)) s) in
     w true (Z.of_nat (g_row c)) = 1%Z /\ w false (Z.of_nat (g_col c)) = 1%Z).
Proof.
  intros Hn grid. destruct (grid_rows specs Hn) as [_ E]. unfold grid. rewrite E. clear grid E.
  assert (Hin : forall c, In c (flat_map (fun i => row_cells i (nth i specs (""%string, true))) (seq 0 (List.length specs))) <->
    exists i s, nth_error specs i = Some s /\ In c (row_cells i s)).
  { intros c. rewrite in_flat_map. split.
    - intros (i & Hi & Hc). apply in_seq in Hi. exists i, (nth i specs (""%string, true)). split; [apply nth_error_nth'; lia|exact Hc].
    - intros (i & s & Hi & Hc). exists i. split; [apply in_seq; apply nth_error_Some in Hi as Hl || idtac|].
      + assert (i < List.length specs) by (apply nth_error_Some; congruence). lia.
      + rewrite (nth_error_nth _ _ _ Hi). exact Hc. }
  split; [|split].
  - intros i n b Hi. split; [apply Hin; exists i, (n, b); split; [exact Hi|left; reflexivity]|]. split.
    + intros ->. apply Hin. exists i, (n, false). split; [exact Hi|]. right. right. left. reflexivity.
    + intros c Hc Hname. apply Hin in Hc as (j & [n' b'] & Hj & Hc).
      assert (n' = n). { rewrite <- Hname. unfold row_cells in Hc. cbn [fst snd] in Hc. destruct b'; cbn in Hc; intuition (subst c; reflexivity). }
      subst n'. assert (Eij : j = i).
      { apply (proj1 (NoDup_nth_error (map fst specs)) Hn).
        - rewrite map_length. apply nth_error_Some. congruence.
        - rewrite !nth_error_map, Hi, Hj. reflexivity. }
      subst j. rewrite Hi in Hj. injection Hj as <-. unfold row_cells in Hc. cbn [fst snd] in Hc.
      destruct b; cbn in Hc; intuition (subst c; cbn in *; congruence).
  - assert (Hgen : forall l, NoDup l -> forall i j c c' row col,
      nth_error (flat_map (fun i => row_cells i (nth i specs (""%string, true))) l) i = Some c ->
      nth_error (flat_map (fun i => row_cells i (nth i specs (""%string, true))) l) j = Some c' ->
      covers c row col -> covers c' row col -> i = j).
    { induction l as [|k l IH]; intros Hl i j c c' row col Hi Hj Hc Hc'; [destruct i; discriminate|].
      apply NoDup_cons_iff in Hl as [Hk Hl]. cbn [flat_map] in Hi, Hj.
      assert (Hrow : forall c, In c (row_cells k (nth k specs (""%string, true))) -> g_row c = k).
      { intros x. destruct (nth k specs (""%string, true)) as [n b]. unfold row_cells. cbn [fst snd]. destruct b; cbn; intuition (subst x; reflexivity). }
      assert (Hother : forall c, In c (flat_map (fun i => row_cells i (nth i specs (""%string, true))) l) -> g_row c <> k).
      { intros x Hx Hkx. apply in_flat_map in Hx as (m & Hm & Hx). apply Hk. rewrite <- Hkx.
        destruct (nth m specs (""%string, true)) as [n b]. unfold row_cells in Hx. cbn [fst snd] in Hx.
        destruct b; cbn in Hx; intuition (subst x; exact Hm). }
      destruct (Nat.lt_ge_cases i (List.length (row_cells k (nth k specs (""%string, true))))) as [Li|Li];
      destruct (Nat.lt_ge_cases j (List.length (row_cells k (nth k specs (""%string, true))))) as [Lj|Lj].
      - rewrite nth_error_app1 in Hi, Hj by assumption. clear - Hi Hj Hc Hc'.
        destruct (nth k specs (""%string, true)) as [n b]. unfold row_cells in Hi, Hj. cbn [fst snd] in Hi, Hj. unfold covers in *.
        destruct b; cbn in Hi, Hj; destruct i as [|[|[|i]]]; destruct j as [|[|[|j]]]; cbn in Hi, Hj; try discriminate;
        try (destruct i; discriminate); try (destruct j; discriminate); try reflexivity;
        injection Hi as <-; injection Hj as <-; cbn in Hc, Hc'; lia.
      - rewrite nth_error_app1 in Hi by assumption. rewrite nth_error_app2 in Hj by assumption.
        apply nth_error_In in Hi, Hj. exfalso. apply (Hother _ Hj). destruct Hc as [Hc _], Hc' as [Hc' _]. rewrite Hc', <- Hc. apply Hrow. exact Hi.
      - rewrite nth_error_app2 in Hi by assumption. rewrite nth_error_app1 in Hj by assumption.
        apply nth_error_In in Hi, Hj. exfalso. apply (Hother _ Hi). destruct Hc as [Hc _], Hc' as [Hc' _]. rewrite Hc, <- Hc'. apply Hrow. exact Hj.
      - rewrite nth_error_app2 in Hi, Hj by assumption. specialize (IH Hl _ _ _ _ _ _ Hi Hj Hc Hc'). lia. }
    apply Hgen. apply seq_NoDup.
  - intros c has s Hc Hr Hco Hp. apply Hin in Hc as (i & [n b] & Hi & Hc).
    assert (Hlt : i < List.length specs) by (apply nth_error_Some; congruence).
    pose proof (c101_responsive has (fst (settings_lines specs)) (snd (settings_lines specs)) s) as (H1 & _ & _).
    cbv zeta in H1. cbv zeta. unfold row_cells in Hc. cbn [fst snd] in Hc.
    assert (Hcc : g_row c = i /\ (g_col c = 0 \/ g_col c = 2)).
    { destruct b; cbn in Hc; intuition (subst c; cbn in *; auto; congruence). }
    destruct Hcc as [-> Hcol]. split.
    + apply (H1 true); [exact Hr|]. cbn. lia.
    + apply (H1 false); [exact Hco|]. cbn. destruct Hcol as [-> | ->]; [left|right; left]; reflexivity.
Qed.
Print Assumptions c101_grid.

(** With a name that is added twice, two settings are put in the same row: the row is the
    number of names. *)
Theorem c101_grid_refuted : exists specs i j c c' row col,
  nth_error (snd (settings_grid specs)) i = Some c /\ nth_error (snd (settings_grid specs)) j = Some c' /\
  covers c row col /\ covers c' row col /\ i <> j /\ g_name c <> g_name c'.
Proof.
  exists [("a", false); ("b", false); ("a", false); ("c", false)]%string, 6, 9,
    (mkCell "a" PLabel 2 0 1), (mkCell "c" PLabel 2 0 1), 2, 0.
  vm_compute. repeat split; try lia; congruence.
Qed.
Print Assumptions c101_grid_refuted.

(** ** Clearing selections *)

(** The selections of the entries above the first spacer are cleared, no others. *)
Theorem c101_reset above k below : (forall e, In e above -> snd e = false) ->
  reset_selections above = (map fst above, None) /\
  reset_selections (above ++ (k, true) :: below) = (map fst above, Some AttributeError).
Proof.
  induction above as [|[n b] l IH]; intros H; [split; reflexivity|].
  assert (b = false) by (apply (H (n, b)); left; reflexivity). subst b.
  destruct IH as [E1 E2]; [intros e He; apply H; right; exact He|].
  cbn [app reset_selections map fst]. rewrite E1, E2. split; reflexivity.
Qed.
Print Assumptions c101_reset.

(** "Reset selections in tabs" clears none: the first setting of the tab is a spacer, and
    the exception is passed over. *)
Theorem c101_reset_refuted :
  NoDup (map fst setting_specs) /\ In ("gui_theme"%string, false) setting_specs /\
  gui_reset [None; Some (fst (settings_grid setting_specs)); None] = ([], None).
Proof.
  assert (Hn : NoDup (map fst setting_specs)).
  { assert (H : forall l : list string, (fix nd l := match l with [] => true | x :: l => negb (existsb (String.eqb x) l) && nd l end) l = true -> NoDup l).
    { induction l as [|x l IH]; intros H; [constructor|]. apply andb_true_iff in H as [H1 H2]. constructor; [|apply IH; exact H2].
      intros Hin. apply negb_true_iff in H1. assert (existsb (String.eqb x) l = true); [|congruence].
      apply existsb_exists. exists x. split; [exact Hin|apply String.eqb_refl]. }
    apply H. vm_compute. reflexivity. }
  split; [exact Hn|]. split; [|vm_compute; reflexivity].
  unfold setting_specs. do 28 right. left. reflexivity.
Qed.
Print Assumptions c101_reset_refuted.

(** ** Rows of buttons *)

(** No two buttons of a row are in the same column; all but the last ones are responsive. *)
Definition button_weight (ls : option lines * option lines) (col : Z) : Z :=
  fst (responsive (fun _ => true) (fst ls) (snd ls) (fun _ _ => 0%Z)) false col.
Theorem c101_buttons_refuted :
  NoDup (map snd analysis_buttons) /\ NoDup (map snd load_widgets) /\
  (forall b c, In (b, c) analysis_buttons -> button_weight analysis_lines c = if String.eqb b "Export WAV" then 0%Z else 1%Z) /\
  (forall b c, In (b, c) load_widgets -> button_weight load_lines c = if String.eqb b "stop time" || String.eqb b "Play" then 0%Z else 1%Z).
Proof.
  split; [|split; [|split]].
  - cbn. repeat constructor; cbn; intuition discriminate.
  - cbn. repeat constructor; cbn; intuition discriminate.
  - intros b c H. cbn in H. repeat (destruct H as [H|H]; [injection H as <- <-; reflexivity|]); destruct H.
  - intros b c H. cbn in H. repeat (destruct H as [H|H]; [injection H as <- <-; reflexivity|]); destruct H.
Qed.
Print Assumptions c101_buttons_refuted.

(** ** Axes *)

(** A point is strictly inside a box. *)
Definition in_box (b : box) (x y : R) : Prop := (b_x b < x < b_x b + b_w b /\ b_y b < y < b_y b + b_h b)%R.
(** Margins that leave room: the three axes have positive sizes, are in the figure with
    the margins around them, and no point is inside two of them; the upper two have the
    same size, [pad_top_wm] between them and [pad_top_w] beside them. *)
Theorem c101_axes w wm h bw bh : (0 <= w -> 0 <= wm -> 0 <= h -> 0 <= bw -> 0 <= bh ->
  w + wm / 2 < / 2 -> h < / 4 -> bw < / 2 -> bh < / 4 ->
  exists l r b, analysis_axes w wm h bw bh = [l; r; b] /\
  (forall a, In a [l; r; b] -> 0 < b_w a /\ 0 < b_h a /\ 0 <= b_x a /\ b_x a + b_w a <= 1 /\ 0 <= b_y a /\ b_y a + b_h a <= 1) /\
  (forall x y, ~ (in_box l x y /\ in_box r x y) /\ ~ (in_box l x y /\ in_box b x y) /\ ~ (in_box r x y /\ in_box b x y)) /\
  b_w l = b_w r /\ b_h l = b_h r /\ b_y l = b_y r /\ b_x r - (b_x l + b_w l) = wm /\ b_x l = w /\ b_x r + b_w r = 1 - w /\
  b_x b = bw /\ b_x b + b_w b = 1 - bw)%R.
Proof.
  intros Hw Hwm Hh Hbw Hbh H1 H2 H3 H4. unfold analysis_axes. eexists _, _, _. split; [reflexivity|]. cbn [b_x b_y b_w b_h].
  split; [|split; [|repeat split; lra]].
  - intros a [<-|[<-|[<-|[]]]]; cbn [b_x b_y b_w b_h]; repeat split; lra.
  - intros x y. unfold in_box. cbn [b_x b_y b_w b_h]. repeat split; intros [[[? ?] [? ?]] [[? ?] [? ?]]]; lra.
Qed.
Print Assumptions c101_axes.

(** ** The title *)

(** Numbers separated by dots. *)
Fixpoint dots (parts : list text) : text :=
  match parts with [] => [] | [p] => p | p :: ps => p ++ "."%char :: dots ps end.
Definition release_version (s : text) : Prop :=
  exists parts, parts <> [] /\ Forall digits parts /\ (s = dots parts \/ s = "v"%char :: dots parts).

Lemma digit_not_dot c : Changelog_Model.is_digit c = true -> Ascii.eqb c "." = false.
Proof. intros H. destruct (Ascii.eqb_spec c ".") as [->|Hn]; [discriminate|reflexivity]. Qed.
Lemma dotted_digits p : Forall (fun c => Changelog_Model.is_digit c = true) p -> forall b rest, dotted b (p ++ rest) = dotted (match p with [] => b | _ => true end) rest.
Proof.
  induction 1 as [|c p Hc Hp IH]; intros b rest; [reflexivity|]. cbn [app dotted]. rewrite Hc, IH. destruct p; reflexivity.
Qed.
Lemma dotted_sound parts : parts <> [] -> Forall digits parts -> dotted false (dots parts) = true.
Proof.
  induction parts as [|p ps IH]; intros Hn H; [congruence|]. apply Forall_cons_iff in H as [[Hp Hd] H]. destruct ps as [|q ps].
  - cbn [dots]. rewrite <- (app_nil_r p). rewrite dotted_digits by exact Hd. destruct p; [congruence|reflexivity].
  - change (dots (p :: q :: ps)) with (p ++ "."%char :: dots (q :: ps)). rewrite dotted_digits by exact Hd. destruct p; [congruence|].
    cbn [dotted]. change (Changelog_Model.is_digit ".") with false. cbn [Ascii.eqb andb]. apply IH; [discriminate|exact H].
Qed.
Lemma dotted_complete s : forall b, dotted b s = true ->
  (exists p parts, Forall (fun c => Changelog_Model.is_digit c = true) p /\ (b = false -> p <> []) /\ Forall digits parts /\ s = dots (p :: parts)).
Proof.
  induction s as [|c s IH]; intros b H.
  - cbn in H. subst b. exists [], []. repeat split; try constructor. discriminate.
  - cbn [dotted] in H. destruct (Changelog_Model.is_digit c) eqn:Ec.
    + destruct (IH _ H) as (p & parts & Hp & _ & Hparts & E). exists (c :: p), parts. split; [constructor; assumption|].
      split; [discriminate|]. split; [exact Hparts|]. rewrite E. destruct parts; reflexivity.
    + destruct (Ascii.eqb_spec c ".") as [->|Hn]; [|discriminate H]. destruct b; [|discriminate H]. cbn [andb] in H.
      destruct (IH _ H) as (p & parts & Hp & Hne & Hparts & E). exists [], (p :: parts). split; [constructor|].
      split; [discriminate|]. split; [constructor; [split; [apply Hne; reflexivity|exact Hp]|exact Hparts]|].
      rewrite E. reflexivity.
Qed.

(** Released versions are not shown, all others are. *)
Theorem c101_title version :
  (release_version version -> title version = list_ascii_of_string "SAMPLE") /\
  (~ release_version version -> title version = list_ascii_of_string "SAMPLE (" ++ version ++ list_ascii_of_string ")").
Proof.
  assert (H : released version = true <-> release_version version).
  { split.
    - intros H. destruct version as [|c s]; [discriminate|]. cbn [released] in H. destruct (Ascii.eqb_spec c "v") as [->|Hn].
      + apply dotted_complete in H as (p & parts & Hp & Hne & Hparts & E). exists (p :: parts). split; [discriminate|].
        split; [constructor; [split; [apply Hne; reflexivity|exact Hp]|exact Hparts]|]. right. rewrite E. reflexivity.
      + apply dotted_complete in H as (p & parts & Hp & Hne & Hparts & E). exists (p :: parts). split; [discriminate|].
        split; [constructor; [split; [apply Hne; reflexivity|exact Hp]|exact Hparts]|]. left. exact E.
    - intros (parts & Hne & Hd & [-> | ->]).
      + pose proof (dotted_sound parts Hne Hd) as H. destruct (dots parts) as [|c s] eqn:E; [discriminate H|].
        cbn [released]. destruct (Ascii.eqb_spec c "v") as [->|Hn]; [|exact H]. cbn [dotted] in H. discriminate H.
      + cbn [released]. rewrite Ascii.eqb_refl. apply dotted_sound; assumption. }
  unfold title. split; intros Hv.
  - apply H in Hv. rewrite Hv. reflexivity.
  - destruct (released version); [exfalso; apply Hv, H; reflexivity|reflexivity].
Qed.
Print Assumptions c101_title.

(** ** The toolbar *)

(** A button of the toolbar gets the background, foreground, height, width and border
    width of the style, those that the style has; what else it had it keeps, but for the
    relief, which is flat.  Widgets of other classes are left as they are.  (The names of
    the two active colours are neither styles nor options: with a style that has them the
    GUI does not start.) *)
Definition remapped (c : wclass) (from to : string) : Prop :=
  exists l, In (c, l) remap_style /\ In (from, to) l.
Lemma remap_fold (style : wclass -> string -> string) c ms : forall options,
  (forall p, In p ms -> tk_option (snd p) = true \/ style c (fst p) = ""%string) -> NoDup (map snd ms) ->
  exists options', foldM (fun options p => let v := style c (fst p) in
      if String.eqb v "" then Ok options else config options (snd p) v) options ms = Ok options' /\
    (forall from to, In (from, to) ms -> style c from <> ""%string -> dget to options' = Some (style c from)) /\
    (forall k, (forall from, In (from, k) ms -> style c from = ""%string) -> dget k options' = dget k options).
Proof.
  induction ms as [|[f t] ms IH]; intros options Hok Hn.
  - exists options. split; [reflexivity|]. split; [intros ? ? []|auto].
  - cbn [map snd] in Hn. apply NoDup_cons_iff in Hn as [Ht Hn]. cbn [foldM fst snd].
    assert (Hok' : forall p, In p ms -> tk_option (snd p) = true \/ style c (fst p) = ""%string) by (intros p Hp; apply Hok; right; exact Hp).
    destruct (String.eqb_spec (style c f) "") as [E|E].
    + destruct (IH options Hok' Hn) as (o & Eo & H1 & H2). exists o. split; [exact Eo|]. split.
      * intros from to [H|H] Hs; [injection H as <- <-; contradiction|apply H1; assumption].
      * intros k Hk. apply H2. intros from Hin. apply Hk. right. exact Hin.
    + destruct (Hok (f, t) (or_introl eq_refl)) as [Htk|Htk]; [|contradiction]. cbn [snd] in Htk.
      unfold config at 1. rewrite Htk. destruct (IH (dset t (style c f) options) Hok' Hn) as (o & Eo & H1 & H2). exists o. split; [exact Eo|]. split.
      * intros from to [H|H] Hs; [|apply H1; assumption]. injection H as <- <-. rewrite H2.
        -- rewrite dget_dset, String.eqb_refl. reflexivity.
        -- intros from Hin. exfalso. apply Ht. apply (in_map snd) in Hin. exact Hin.
      * intros k Hk. rewrite H2 by (intros from Hin; apply Hk; right; exact Hin). rewrite dget_dset.
        destruct (String.eqb_spec t k) as [->|Hne]; [exfalso; apply E, Hk; left; reflexivity|reflexivity].
Qed.
Theorem c101_toolbar (style : wclass -> string -> string) options :
  remap style None options = Ok options /\
  (forall c, (forall k, style c ("active " ++ k)%string = ""%string) -> exists options', remap style (Some c) options = Ok options' /\
     (forall from to, remapped c from to -> style c from <> ""%string -> dget to options' = Some (style c from)) /\
     dget "relief" options' = (match c with CButton | CCheckbutton => Some "flat"%string | _ => dget "relief"%string options end) /\
     (forall k, k <> "relief"%string -> (forall from, remapped c from k -> style c from = ""%string) -> dget k options' = dget k options)) /\
  (forall c, (c = CButton \/ c = CCheckbutton) -> style c "active background"%string <> ""%string -> remap style (Some c) options = Err TclError).
Proof.
  assert (Hmap : forall c, exists l, find (fun p => wclass_eqb (fst p) c) remap_style = Some (c, l) /\
    (forall from to, remapped c from to <-> In (from, to) l) /\ NoDup (map snd l) /\ ~ In "relief"%string (map snd l) /\
    (forall p, In p l -> tk_option (snd p) = true \/ exists k, fst p = ("active " ++ k)%string)).
  { intros c. unfold remapped, remap_style. destruct c; cbn [find wclass_eqb fst]; eexists; (split; [reflexivity|]);
    (split; [intros from to; split; [intros (l & [H|[H|[H|[H|[]]]]] & Hin); try (discriminate H); injection H as <-; exact Hin
             |intros Hin; eexists; split; [|exact Hin]; cbn; tauto]
      |split; [cbn; repeat constructor; cbn; intuition discriminate|split; [cbn; intuition discriminate|
        intros p Hp; cbn in Hp; repeat (destruct Hp as [<-|Hp]; [first [left; reflexivity|right; exists "background"%string; reflexivity|right; exists "foreground"%string; reflexivity]|]); destruct Hp]]]). }
  split; [reflexivity|]. split.
  - intros c Hact. destruct (Hmap c) as (l & Ef & Hr & Hnd & Hrel & Htk). unfold remap. rewrite Ef.
    set (o0 := match c with CButton | CCheckbutton => dset "relief"%string "flat"%string options | _ => options end).
    assert (E0 : (match c with CButton | CCheckbutton => config options "relief" "flat" | _ => Ok options end) = Ok o0) by (destruct c; reflexivity).
    rewrite E0. cbn [bind].
    destruct (remap_fold style c l o0) as (o & Eo & H1 & H2); [|exact Hnd|].
    + intros p Hp. destruct (Htk p Hp) as [H|(k & H)]; [left; exact H|right; rewrite H; apply Hact].
    + exists o. split; [exact Eo|]. split; [intros from to H; apply H1, Hr; exact H|]. split.
      * rewrite H2.
        -- unfold o0. destruct c; rewrite ?dget_dset; reflexivity.
        -- intros from Hin. exfalso. apply Hrel. apply (in_map snd) in Hin. exact Hin.
      * intros k Hk Hs. rewrite H2 by (intros from Hin; apply Hs, Hr; exact Hin). unfold o0.
        destruct c; try reflexivity; rewrite dget_dset; (destruct (String.eqb_spec "relief" k) as [E|E]; [congruence|reflexivity]).
  - intros c Hc Hact. unfold remap.
    assert (Hgo : forall c, (c = CButton \/ c = CCheckbutton) -> forall b, style c "active background"%string <> ""%string ->
      foldM (fun options p => let v := style c (fst p) in if String.eqb v "" then Ok options else config options (snd p) v) b
        [("background", "bg"); ("foreground", "fg"); ("height", "height"); ("width", "width"); ("borderwidth", "bd");
         ("active background", "active background"); ("active foreground", "active foreground")]%string = Err TclError).
    { clear. intros c _ b H. cbn [foldM fst snd].
      destruct (String.eqb (style c "background"%string) ""%string), (String.eqb (style c "foreground"%string) ""%string), (String.eqb (style c "height"%string) ""%string),
        (String.eqb (style c "width"%string) ""%string), (String.eqb (style c "borderwidth"%string) ""%string);
      cbn [foldM fst snd]; unfold config; cbn [tk_option list_ascii_of_string existsb Ascii.eqb Bool.eqb orb negb];
      destruct (String.eqb_spec (style c "active background"%string) ""%string) as [E|E]; try contradiction; reflexivity. }
    destruct Hc as [-> | ->]; cbn [remap_style find wclass_eqb fst]; unfold config at 1; cbn [tk_option list_ascii_of_string existsb Ascii.eqb Bool.eqb orb negb bind];
    apply Hgo; auto.
Qed.
Print Assumptions c101_toolbar.

(** ** Files *)

Lemma text_eqb_true a b : text_eqb a b = true <-> a = b.
Proof. unfold text_eqb. destruct (list_eq_dec ascii_dec a b); split; congruence. Qed.
Definition relative (p : text) : Prop := match p with c :: _ => c <> "/"%char | [] => True end.

Lemma join_relative a b : relative b -> join_path a b = path_join a b.
Proof. destruct b as [|c b]; [reflexivity|]. cbn. intros H. unfold is_slash. destruct (Ascii.eqb_spec c "/"); [contradiction|reflexivity]. Qed.

(** Files of a folder: different names give different files, and all are below the
    folder. *)
Theorem c101_paths dir a b : dir <> [] -> relative a -> relative b ->
  (file_path dir a = file_path dir b -> a = b) /\
  (exists slash, (slash = [] \/ slash = ["/"%char]) /\ file_path dir a = dir ++ slash ++ a /\ last (dir ++ slash) "0"%char = "/"%char).
Proof.
  intros Hd Ha Hb. unfold file_path. rewrite !join_relative by assumption. unfold path_join. destruct dir as [|c dir]; [congruence|].
  destruct (Ascii.eqb_spec (last (c :: dir) "0"%char) "/") as [E|E].
  - split; [apply app_inv_head|]. exists []. split; [left; reflexivity|]. rewrite app_nil_r. split; [reflexivity|exact E].
  - split.
    + intros H. apply app_inv_head in H. injection H as H. exact H.
    + exists ["/"%char]. split; [right; reflexivity|]. split; [reflexivity|]. apply last_last.
Qed.
Print Assumptions c101_paths.

(** The folder in the home of the user: below it for a relative path, the path itself for
    an absolute one. *)
Theorem c101_home home path : home <> [] -> last home "0"%char <> "/"%char ->
  (relative path -> user_dir home path true = home ++ "/"%char :: path) /\
  (forall p, path = "/"%char :: p -> user_dir home path true = path) /\
  user_dir home path false = path.
Proof.
  intros Hh Hl.
  assert (Es : rev (dropwhile is_slash (rev home)) = home).
  { destruct (exists_last Hh) as (h & c & ->). rewrite last_last in Hl. rewrite rev_app_distr. cbn [rev app dropwhile].
    unfold is_slash at 1. destruct (Ascii.eqb_spec c "/"); [contradiction|]. cbn [rev]. rewrite rev_involutive. reflexivity. }
  split; [|split; [|reflexivity]].
  - intros Hr. unfold user_dir. rewrite join_relative by exact Hr.
    transitivity (match rev (dropwhile is_slash (rev home)) ++ "/"%char :: path with [] => ["/"%char] | q => q end); [reflexivity|].
    rewrite Es. destruct home; [congruence|reflexivity].
  - intros p ->. reflexivity.
Qed.
Print Assumptions c101_home.

(** What is saved is what is loaded, as often as it is loaded, until it is saved again or
    deleted; the folder is made; no other file changes. *)
Theorem c101_saved {D} (dump : D -> text * option exn) (parse : text -> res D) p d f :
  dirname p <> [] -> snd (dump d) = None -> parse (fst (dump d)) = Ok d ->
  exists f', save_json dump p d f = (Ok tt, f') /\ file_exists p f' = true /\ In (dirname p) (d_made f') /\
    (exists f'', load_json parse p f' = (Ok d, f'') /\ forall q, d_file f'' q = d_file f' q) /\
    (forall q, q <> p -> d_file f' q = d_file f q) /\
    exists g, delete p f' = (Ok tt, g) /\ file_exists p g = false /\ fst (load_json parse p g) = Err FileNotFoundError /\
      fst (delete p g) = Err FileNotFoundError /\ forall q, q <> p -> d_file g q = d_file f q.
Proof.
  intros Hp He Hd. unfold save_json, make_dirs, makedirs. destruct (dirname p) as [|c l] eqn:E; [congruence|].
  destruct (dump d) as [s e]. cbn [fst snd] in *. subst e. eexists. split; [reflexivity|].
  assert (Hpp : text_eqb p p = true) by (apply text_eqb_true; reflexivity).
  assert (Hq : forall q, q <> p -> text_eqb p q = false) by (intros q Hq; destruct (text_eqb p q) eqn:Eq; [apply text_eqb_true in Eq; congruence|reflexivity]).
  split; [unfold file_exists, write; cbn; rewrite Hpp; reflexivity|].
  split; [cbn; apply in_or_app; right; left; reflexivity|].
  split; [|split].
  - unfold load_json, make_dirs, makedirs. rewrite E. eexists. split; [cbn; rewrite Hpp, Hd; reflexivity|reflexivity].
  - intros q H. cbn. rewrite (Hq q H). reflexivity.
  - unfold delete at 1. cbn [d_file write]. rewrite Hpp. eexists. split; [reflexivity|].
    split; [unfold file_exists; cbn; rewrite Hpp; reflexivity|].
    split; [unfold load_json, make_dirs, makedirs; rewrite E; cbn; rewrite Hpp; reflexivity|].
    split; [unfold delete; cbn; rewrite Hpp; reflexivity|].
    intros q H. cbn. rewrite !(Hq q H). reflexivity.
Qed.
Print Assumptions c101_saved.

(** Saving what has no JSON form raises, and the file that was there is lost: it is opened,
    hence emptied, before the data are looked at. *)
Theorem c101_lost_refuted : exists (dump : option text -> text * option exn) (parse : text -> res (option text)) p d f,
  fst (load_json parse p f) = Ok (Some (list_ascii_of_string "1")) /\
  fst (save_json dump p d f) = Err TypeError /\
  fst (load_json parse p (snd (save_json dump p d f))) = Err ValueError.
Proof.
  exists (fun d => match d with Some s => (s, None) | None => ([], Some TypeError) end),
    (fun s => match s with [] => Err ValueError | _ => Ok (Some s) end),
    (list_ascii_of_string "/home/a/.lim-sample/settings.json"), None,
    (mkFs [] (fun _ => Some (list_ascii_of_string "1"))).
  vm_compute. repeat split; reflexivity.
Qed.
Print Assumptions c101_lost_refuted.

(** ** Themes *)

(** A theme that exists is kept and nothing is said.  Any other is dropped and logged, with
    the themes there are; a message box is opened unless the name is empty. *)
Theorem c101_theme themes t :
  (In t themes -> postprocess_guitheme themes (Some t) = Ok (t, [], [])) /\
  (~ In t themes -> exists m, postprocess_guitheme themes (Some t) = Ok (""%string, [m], if String.eqb t "" then [] else [m]) /\
     m = ("Unsupported theme: '" ++ t ++ "'. Supported themes are: " ++ String.concat ", " (map (fun s => "'" ++ s ++ "'") themes))%string).
Proof.
  unfold postprocess_guitheme, theme_valid. destruct (existsb (String.eqb t) themes) eqn:E.
  - apply existsb_exists in E as (x & Hx & Ex). apply String.eqb_eq in Ex. subst x. split; [reflexivity|contradiction].
  - split.
    + intros Hin. exfalso. assert (existsb (String.eqb t) themes = true); [|congruence]. apply existsb_exists. exists t. split; [exact Hin|apply String.eqb_refl].
    + intros _. eexists. split; [|reflexivity]. destruct (String.eqb t ""); reflexivity.
Qed.
Print Assumptions c101_theme.

(** With null for the theme in the file of the settings, for which the window takes the
    default theme, the settings tab is not made. *)
Theorem c101_theme_refuted themes linux : exists d, dget "gui_theme" d = Some None /\
  get_theme themes linux true (Object d) = Ok (default_theme linux) /\
  forall t, dget "gui_theme" d = Some t -> postprocess_guitheme themes t = Err TypeError.
Proof.
  exists [("gui_theme"%string, None)]. split; [reflexivity|]. split; [reflexivity|]. intros t H. injection H as <-. reflexivity.
Qed.
Print Assumptions c101_theme_refuted.

(** ** Examples *)
Example c101_example :
  let parent w := match w with 0 => None | 1 => Some 0 | _ => Some 1 end in
  assigned parent 1 "audio_sr" [(2, "audio_sr"%string, Some 1); (3, "audio_sr"%string, Some 2); (3, "audio_x"%string, Some 9)] (Some 2) /\
  widget_children (Node 0 [Node 1 [Node 2 []; Node 3 [Node 4 []]]; Node 5 []]) false = [1; 2; 3; 4; 5] /\
  (let ms := [fun n => if String.eqb n "Frame" then Some (Class 0) else None;
              fun n => if String.eqb n "Frame" then Some (Class 1) else if String.eqb n "Canvas" then Some (Class 2) else if String.eqb n "NSEW" then Some (Value 3) else None] in
   fst (accesses ms (fun _ => false) ["Frame"; "Canvas"; "NSEW"; "Frame"; "Nothing"]%string (mkWrapped [] 10)) =
     [Ok (Class 10); Ok (Class 11); Ok (Value 3); Ok (Class 10); Err AttributeError] /\ found ms "Frame" (Class 0)) /\
  release_version (list_ascii_of_string "v2.10.0") /\ ~ release_version (list_ascii_of_string "2.2.1-beta") /\
  user_dir (list_ascii_of_string "/home/a") (list_ascii_of_string ".lim-sample") true = list_ascii_of_string "/home/a/.lim-sample".
Proof.
  cbv zeta. split; [|split; [reflexivity|split; [split; [reflexivity|]|split; [|split; [|reflexivity]]]]].
  - apply (assigned_before _ 1 _ [(2, "audio_sr"%string, Some 1); (3, "audio_sr"%string, Some 2)]); [right; discriminate|].
    apply (assigned_last _ 1 _ [(2, "audio_sr"%string, Some 1)]). reflexivity.
  - eexists [], _, _. split; [reflexivity|]. split; [intros ? []|reflexivity].
  - exists [["2"%char]; ["1"%char; "0"%char]; ["0"%char]]. split; [discriminate|]. split; [|right; reflexivity].
    repeat constructor; try discriminate; try reflexivity.
  - intros H. apply (proj1 (c101_title _)) in H. vm_compute in H. discriminate H.
Qed.
Example c101_example_axes :
  ((0 <= 0.09 /\ 0 <= 0.02 /\ 0 <= 0.05 /\ 0.09 + 0.02 / 2 < / 2 /\ 0.02 < / 4 /\ 0.05 < / 2 /\ 0.05 < / 4)%R) /\
  remap (fun _ k => if String.eqb k "background" then "#eee"%string else ""%string) (Some CButton) [("bg", "grey"); ("text", "Home")]%string
    = Ok [("bg", "#eee"); ("text", "Home"); ("relief", "flat")]%string.
Proof. split; [lra|reflexivity]. Qed.
