(** C54: the trim region of the GUI.
    C55: the settings of the GUI. *)
From Coq Require Import String List Bool ZArith QArith Qround Floats.SpecFloat Lia Sorted Psatz.
Import ListNotations.
From Verif Require Import Base Py PyLemmas ListLemmas Dict Gui_Model.
Local Open Scope list_scope.
Local Open Scope Z_scope.

(** ** C54 *)

(** No audio was loaded yet, or the region is a non-empty part of it. *)
Definition empty_tab (s : trim) : Prop := t_size s = None /\ t_start s = None /\ t_stop s = None.
Definition valid (s : trim) : Prop :=
  exists n a b, t_size s = Some n /\ t_start s = Some a /\ t_stop s = Some b /\ 0 <= a < b /\ b <= n.
(** What onset detection gives for an audio of [n] samples: increasing positions. *)
Definition good_event (e : gevent) : Prop :=
  match e with
  | Load n _ onsets => onsets <> [] /\ StronglySorted Z.lt onsets /\ Forall (fun i => 0 <= i < n) onsets
  | _ => True
  end.

Lemma set_trim_valid : forall s v d, valid s -> valid (fst (set_trim s v d)) /\ t_size (fst (set_trim s v d)) = t_size s.
Proof.
  intros s v d (n & a & b & En & Ea & Eb & H1 & H2). unfold set_trim, loaded. rewrite En, Ea, Eb.
  destruct v as [v|]; cbn [fst]; [|split; [exists n, a, b; auto|exact En]].
  destruct (f_int (f_mul v (f_of_int (t_sr s)))) as [i|e]; cbn [fst]; [|split; [exists n, a, b; auto|exact En]].
  destruct d; cbn [fst].
  - split; [|exact En]. exists n, (Z.min (b - 1) (Z.max 0 i)), b. cbn [with_start t_size t_start t_stop]. repeat split; auto; lia.
  - split; [|exact En]. exists n, a, (Z.max (a + 1) (Z.min n i)). cbn [with_stop t_size t_start t_stop]. repeat split; auto; lia.
Qed.
Lemma refresh_valid : forall s, valid s -> valid (refresh s) /\ t_size (refresh s) = t_size s.
Proof.
  intros s V. unfold refresh. destruct (loaded s) as [[[n a] b]|]; [|auto].
  destruct (set_trim_valid s (Some (f_div (f_of_int a) (f_of_int (t_sr s)))) true V) as [V1 E1].
  destruct (t_stop _) as [b'|]; [|auto].
  match goal with |- context [fst (set_trim ?S ?v false)] => destruct (set_trim_valid S v false V1) as [V2 E2] end.
  split; [exact V2|]. now rewrite E2.
Qed.
Lemma side_valid : forall s d, valid s -> valid (with_side s d).
Proof. intros s d (n & a & b & H). exists n, a, b. exact H. Qed.
Lemma argmax_cons : forall x y l i best d, argmax_diff (x :: y :: l) i best d =
  if d <? y - x then argmax_diff (y :: l) (S i) i (y - x) else argmax_diff (y :: l) (S i) best d.
Proof. reflexivity. Qed.
Lemma argmax_max : forall l i best d,
  let r := argmax_diff l i best d in
  (r = best /\ forall k, (S k < List.length l)%nat -> nth (S k) l 0 - nth k l 0 <= d) \/
  (exists k, r = (i + k)%nat /\ (S k < List.length l)%nat /\ d < nth (S k) l 0 - nth k l 0 /\
     forall m, (S m < List.length l)%nat -> nth (S m) l 0 - nth m l 0 <= nth (S k) l 0 - nth k l 0).
Proof.
  induction l as [|x l IH]; intros i best d; cbv zeta; [left; split; [reflexivity|cbn; lia]|].
  destruct l as [|y l]; [left; split; [reflexivity|cbn; lia]|].
  rewrite argmax_cons. destruct (Z.ltb_spec d (y - x)) as [L|L].
  - right. destruct (IH (S i) i (y - x)) as [[E M]|(k & E & Hk & D & M)].
    + exists 0%nat. rewrite E. repeat split; [lia|cbn; lia|exact L|]. intros [|m] Hm; [cbn; lia|]. cbn [List.length] in Hm.
      change (nth (S (S m)) (x :: y :: l) 0 - nth (S m) (x :: y :: l) 0) with (nth (S m) (y :: l) 0 - nth m (y :: l) 0).
      specialize (M m). cbn [List.length] in M. cbn [nth] in *. lia.
    + exists (S k). rewrite E. cbn [List.length] in *. repeat split; [lia|lia|cbn [nth] in *; lia|]. intros [|m] Hm; [cbn [nth] in *; lia|].
      specialize (M m). cbn [nth] in *. lia.
  - destruct (IH (S i) best d) as [[E M]|(k & E & Hk & D & M)].
    + left. split; [exact E|]. intros [|m] Hm; [cbn; lia|]. specialize (M m). cbn [List.length nth] in *. lia.
    + right. exists (S k). rewrite E. cbn [List.length] in *. repeat split; [lia|lia|cbn [nth] in *; lia|]. intros [|m] Hm; [cbn [nth] in *; lia|].
      specialize (M m). cbn [nth] in *. lia.
Qed.
Lemma sorted_step : forall l n i, StronglySorted Z.lt l -> Forall (fun j => 0 <= j < n) l -> (i < List.length l)%nat ->
  0 <= nth i (l ++ [n]) 0 < nth (S i) (l ++ [n]) 0 /\ nth (S i) (l ++ [n]) 0 <= n.
Proof.
  induction l as [|x l IH]; intros n i S F H; [cbn in H; lia|]. inversion_clear S as [|? ? S' G]. inversion_clear F as [|? ? Hx F'].
  destruct i as [|i].
  - cbn [app nth]. destruct l as [|y l]; cbn [app nth]; [lia|]. inversion_clear G as [|? ? Hy _]. inversion_clear F' as [|? ? Hn _]. lia.
  - cbn [app nth]. cbn [List.length] in H. apply IH; [exact S'|exact F'|lia].
Qed.
Lemma auto_valid : forall s n onsets, t_size s = Some n -> onsets <> [] -> StronglySorted Z.lt onsets ->
  Forall (fun i => 0 <= i < n) onsets -> valid (fst (auto_trim s n onsets)) /\ snd (auto_trim s n onsets) = None /\
  t_size (fst (auto_trim s n onsets)) = Some n.
Proof.
  intros s n onsets En N S F. unfold auto_trim. destruct onsets as [|x onsets]; [congruence|].
  assert (L : exists y r, onsets ++ [n] = y :: r) by (destruct onsets as [|y r]; [exists n, []|exists y, (r ++ [n])]; reflexivity).
  destruct L as (y & r & E). cbn [app]. rewrite E. cbn [tl fst snd]. split; [|split; [reflexivity|exact En]].
  set (i := argmax_diff (y :: r) 1 0 (y - x)).
  assert (Hi : (i < List.length (x :: onsets))%nat).
  { assert (Lr : List.length r = List.length onsets) by (apply (f_equal (@List.length Z)) in E; rewrite app_length in E; cbn in E; lia).
    cbn [List.length]. rewrite <- Lr. unfold i. destruct (argmax_max (y :: r) 1 0 (y - x)) as [[H _]|(k & H & Hk & _)]; rewrite H; [lia|].
    cbn [List.length] in Hk. lia. }
  pose proof (sorted_step (x :: onsets) n i S F Hi) as H. cbn [app] in H. rewrite E in H.
  exists n, (nth i (x :: y :: r) 0), (nth (Datatypes.S i) (x :: y :: r) 0). cbn [t_size t_start t_stop]. repeat split; tauto.
Qed.
Lemma gstep_valid : forall s e, good_event e -> (empty_tab s \/ valid s) ->
  empty_tab (fst (gstep s e)) \/ valid (fst (gstep s e)).
Proof.
  intros s e G H. destruct e as [d v|tb x|tb x|n sr onsets]; cbn [gstep].
  - destruct H as [H|H]; [|right; now apply set_trim_valid]. left. unfold set_trim, loaded. destruct H as (E & F1 & F2). rewrite E. cbn. unfold empty_tab. auto.
  - destruct tb; cbn [fst]; [destruct H as [H|H]; [left; exact H|right; now apply side_valid]|].
    destruct H as [(E & F1 & F2)|H].
    + left. unfold loaded. rewrite E. cbn. unfold empty_tab. auto.
    + right. destruct (loaded s) as [[[n a] b]|]; [|exact H]. destruct (t_side s); [exact H|]. destruct x as [v|]; [|exact H].
      destruct (f_int _); [now apply side_valid|exact H].
  - destruct tb; cbn [fst]; [destruct H as [H|H]; [left; exact H|right; now apply side_valid]|].
    destruct H as [(E & F1 & F2)|H].
    + left. unfold loaded. rewrite E. cbn. unfold empty_tab. auto.
    + right. destruct (loaded s) as [[[n a] b]|]; [|exact H]. destruct (t_side s) as [d|]; [|exact H].
      destruct (set_trim_valid s x d H) as [V _]. destruct (set_trim s x d) as [s' [e|]]; cbn [fst] in *; [exact V|].
      apply side_valid. now apply refresh_valid.
  - right. destruct G as (G1 & G2 & G3). set (s1 := mkTrim (Some n) sr (t_start s) (t_stop s) (t_side s)).
    destruct (auto_valid s1 n onsets eq_refl G1 G2 G3) as (V & E & _).
    destruct (auto_trim s1 n onsets) as [s' o]. cbn [fst snd] in *. subst o. now apply refresh_valid.
Qed.
(** From a tab without audio or with a valid region, after any history of
    loading, typing and clicking with any numbers (with not-a-numbers, infinite
    numbers and clicks outside of the plot), the region is valid. *)
Theorem c54_region : forall h s, Forall good_event h -> (empty_tab s \/ valid s) ->
  empty_tab (grun s h) \/ valid (grun s h).
Proof.
  intros h. unfold grun. induction h as [|e h IH]; intros s G H; [exact H|]. inversion_clear G as [|? ? Ge Gh].
  cbn [fold_left]. apply IH; [exact Gh|]. now apply gstep_valid.
Qed.
Print Assumptions c54_region.

(** Loading an audio puts the region on the longest stretch between onsets, or
    between the last one and the end. *)
Theorem c54_auto : forall s n onsets s', onsets <> [] -> auto_trim s n onsets = (s', None) ->
  exists i, (i < List.length onsets)%nat /\ t_start s' = Some (nth i (onsets ++ [n]) 0) /\ t_stop s' = Some (nth (S i) (onsets ++ [n]) 0) /\
  forall k, (k < List.length onsets)%nat ->
    nth (S k) (onsets ++ [n]) 0 - nth k (onsets ++ [n]) 0 <= nth (S i) (onsets ++ [n]) 0 - nth i (onsets ++ [n]) 0.
Proof.
  intros s n onsets s' N E. unfold auto_trim in E. destruct onsets as [|x onsets]; [congruence|]. cbn [app] in *.
  assert (L : exists y r, onsets ++ [n] = y :: r) by (destruct onsets as [|y r]; [exists n, []|exists y, (r ++ [n])]; reflexivity).
  destruct L as (y & r & Er). rewrite Er in *. cbn [tl] in E.
  set (i := argmax_diff (y :: r) 1 0 (y - x)) in E. injection E as <-.
  assert (Lr : List.length r = List.length onsets) by (apply (f_equal (@List.length Z)) in Er; rewrite app_length in Er; cbn in Er; lia).
  exists i. cbn [t_start t_stop].
  destruct (argmax_max (y :: r) 1 0 (y - x)) as [[E M]|(k & E & Hk & D & M)]; fold i in E; rewrite E; cbn [List.length] in *.
  - split; [lia|]. split; [reflexivity|]. split; [reflexivity|]. intros [|m] Hm; [lia|]. specialize (M m). cbn [nth] in *. lia.
  - split; [lia|]. split; [reflexivity|]. split; [reflexivity|]. intros [|m] Hm; [cbn [nth Nat.add] in *; lia|]. specialize (M m). cbn [nth Nat.add] in *. lia.
Qed.
Print Assumptions c54_auto.

(** Typing a start (stop) time moves only that end, to the valid position
    nearest to the time; a text that is not a number counts as 0, and a time
    without an index (not a number, infinite) changes nothing. *)
Definition typed (v : option spec_float) : spec_float := match v with Some v => v | None => S754_zero false end.
Theorem c54_typed : forall s n a b d v, loaded s = Some (n, a, b) -> 0 <= a < b -> b <= n ->
  let '(s', e) := gstep s (Type_ d v) in
  t_size s' = t_size s /\ t_sr s' = t_sr s /\ t_side s' = t_side s /\
  match f_int (f_mul (typed v) (f_of_int (t_sr s))) with
  | Err x => e = Some x /\ s' = s
  | Ok i => e = None /\
    if d then t_stop s' = Some b /\ exists a', t_start s' = Some a' /\ 0 <= a' < b /\ forall j, 0 <= j < b -> Z.abs (a' - i) <= Z.abs (j - i)
    else t_start s' = Some a /\ exists b', t_stop s' = Some b' /\ a < b' <= n /\ forall j, a < j <= n -> Z.abs (b' - i) <= Z.abs (j - i)
  end.
Proof.
  intros s n a b d v L H1 H2. assert (E : t_start s = Some a /\ t_stop s = Some b).
  { unfold loaded in L. destruct (t_size s), (t_start s), (t_stop s); try discriminate. injection L as -> -> ->. auto. }
  destruct E as [Ea Eb]. cbn [gstep]. unfold set_trim. rewrite L. fold (typed v).
  destruct (f_int (f_mul (typed v) (f_of_int (t_sr s)))) as [i|x]; [|auto].
  destruct d; cbn [with_start with_stop t_size t_sr t_start t_stop t_side]; repeat split; auto.
  - eexists. split; [reflexivity|]. split; [lia|]. intros j Hj. lia.
  - eexists. split; [reflexivity|]. split; [lia|]. intros j Hj. lia.
Qed.
Print Assumptions c54_typed.

(** A click takes the nearest end and, if the times of the region convert back
    to the same samples, moves only this end, to the nearest valid position. *)
Definition converts_back (sr i : Z) : Prop := f_int (f_mul (f_div (f_of_int i) (f_of_int sr)) (f_of_int sr)) = Ok i.
Lemma refresh_exact : forall s n a b, loaded s = Some (n, a, b) -> 0 <= a < b -> b <= n ->
  converts_back (t_sr s) a -> converts_back (t_sr s) b -> refresh s = s.
Proof.
  intros s n a b L H1 H2 Ca Cb. assert (E : t_size s = Some n /\ t_start s = Some a /\ t_stop s = Some b).
  { unfold loaded in L. destruct (t_size s), (t_start s), (t_stop s); try discriminate. injection L as -> -> ->. auto. }
  destruct E as (En & Ea & Eb).
  assert (S1 : fst (set_trim s (Some (f_div (f_of_int a) (f_of_int (t_sr s)))) true) = s).
  { unfold set_trim. rewrite L, Ca. cbn [fst]. destruct s as [sz sr0 st sp sd]. cbn [t_size t_sr t_stop t_side t_start] in *. subst.
    unfold with_start. cbn [t_size t_sr t_stop t_side]. f_equal. f_equal. lia. }
  assert (S2 : fst (set_trim s (Some (f_div (f_of_int b) (f_of_int (t_sr s)))) false) = s).
  { unfold set_trim. rewrite L, Cb. cbn [fst]. destruct s as [sz sr0 st sp sd]. cbn [t_size t_sr t_stop t_side t_start] in *. subst.
    unfold with_stop. cbn [t_size t_sr t_start t_side]. f_equal. f_equal. lia. }
  unfold refresh. rewrite L. cbv zeta. rewrite S1, Eb. exact S2.
Qed.
Theorem c54_click : forall s n a b x y i j, loaded s = Some (n, a, b) -> 0 <= a < b -> b <= n -> t_side s = None ->
  f_int (f_mul x (f_of_int (t_sr s))) = Ok i -> f_int (f_mul y (f_of_int (t_sr s))) = Ok j ->
  (forall k, In k [a; b; Z.min (b - 1) (Z.max 0 j); Z.max (a + 1) (Z.min n j)] -> converts_back (t_sr s) k) ->
  let s' := grun s [Press false (Some x); Release false (Some y)] in
  t_size s' = Some n /\ t_sr s' = t_sr s /\ t_side s' = None /\
  if Z.abs (i - a) <? Z.abs (i - b)
  then t_stop s' = Some b /\ exists a', t_start s' = Some a' /\ 0 <= a' < b /\ forall k, 0 <= k < b -> Z.abs (a' - j) <= Z.abs (k - j)
  else t_start s' = Some a /\ exists b', t_stop s' = Some b' /\ a < b' <= n /\ forall k, a < k <= n -> Z.abs (b' - j) <= Z.abs (k - j).
Proof.
  intros s n a b x y i j L H1 H2 Sd Hi Hj C. cbv zeta. assert (E : t_size s = Some n /\ t_start s = Some a /\ t_stop s = Some b).
  { unfold loaded in L. destruct (t_size s), (t_start s), (t_stop s); try discriminate. injection L as -> -> ->. auto. }
  destruct E as (En & Ea & Eb). unfold grun. cbn [fold_left gstep]. rewrite L, Sd, Hi. cbn [fst].
  set (d := Z.abs (i - a) <? Z.abs (i - b)). set (s1 := with_side s (Some d)).
  assert (L1 : loaded s1 = Some (n, a, b)) by exact L. rewrite L1. change (t_side s1) with (Some d).
  unfold set_trim. rewrite L1. change (t_sr s1) with (t_sr s). rewrite Hj.
  destruct d eqn:D.
  - set (a' := Z.min (b - 1) (Z.max 0 j)) in *. rewrite (refresh_exact (with_start s1 a') n a' b);
      [| |unfold a'; lia|exact H2|apply C; cbn; auto|apply C; cbn; auto].
    2: { unfold loaded, s1. cbn [with_start with_side t_size t_start t_stop]. now rewrite En, Eb. }
    cbn [fst with_side with_start t_size t_sr t_side t_stop t_start s1]. repeat split; auto. exists a'. unfold a'.
    repeat split; try lia.
  - set (b' := Z.max (a + 1) (Z.min n j)) in *. rewrite (refresh_exact (with_stop s1 b') n a b');
      [| |unfold b'; lia|unfold b'; lia|apply C; cbn; auto|apply C; cbn; auto].
    2: { unfold loaded, s1. cbn [with_stop with_side t_size t_start t_stop]. now rewrite En, Ea. }
    cbn [fst with_side with_stop t_size t_sr t_side t_stop t_start s1]. repeat split; auto. exists b'. unfold b'.
    repeat split; try lia.
Qed.
Print Assumptions c54_click.
Definition tab44 (n a b : Z) : trim := mkTrim (Some n) 44100 (Some a) (Some b) None.
Example c54_click_example :
  let s := tab44 44100 100 22050 in
  (forall k, In k [100; 22050; 11025; 44100] -> converts_back 44100 k) /\
  f_int (f_mul (f_of_int 1) (f_of_int 44100)) = Ok 44100 /\
  t_stop (grun s [Press false (Some (f_of_int 1)); Release false (Some (f_of_int 1))]) = Some 44100.
Proof.
  cbv zeta. split; [|vm_compute; auto]. intros k [<-|[<-|[<-|[<-|[]]]]]; vm_compute; reflexivity.
Qed.

(** In double precision not all times convert back: moving the stop by a click
    also moves the start from sample 15 to sample 14. *)
Theorem c54_other_end_refuted : exists s x y, valid s /\ t_side s = None /\
  t_start s = Some 15 /\
  let s' := grun s [Press false (Some x); Release false (Some y)] in
  t_stop s' <> t_stop s /\ t_start s' = Some 14.
Proof.
  exists (tab44 44100 15 22050), (f_of_int 1), (f_of_int 1). split; [|vm_compute; repeat split; discriminate].
  exists 44100, 15, 22050. cbn. repeat split; lia.
Qed.
Print Assumptions c54_other_end_refuted.
(** Loading an audio does not always give the region of the onsets for the same
    reason. *)
Theorem c54_load_refuted : exists n onsets, good_event (Load n 44100 onsets) /\
  auto_trim (mkTrim (Some n) 44100 None None None) n onsets = (tab44 n 15 n, None) /\
  t_start (grun (mkTrim None 44100 None None None) [Load n 44100 onsets]) = Some 14.
Proof.
  exists 44100, [15]. split; [|vm_compute; auto]. cbn. split; [discriminate|]. split; repeat constructor; lia.
Qed.
Print Assumptions c54_load_refuted.
(** A click released outside of the plot leaves its end chosen: the next click
    moves this end instead of the nearest one. *)
Theorem c54_stale_side_refuted : exists s x y, valid s /\ t_side s = None /\
  let s1 := grun s [Press false (Some x); Release false None] in
  let i := 44100 in
  valid s1 /\ t_start s1 = t_start s /\ t_stop s1 = t_stop s /\
  f_int (f_mul y (f_of_int (t_sr s))) = Ok i /\
  (exists a b, t_start s = Some a /\ t_stop s = Some b /\ Z.abs (i - b) < Z.abs (i - a)) /\
  let s2 := grun s1 [Press false (Some y); Release false (Some y)] in
  t_stop s2 = t_stop s /\ t_start s2 <> t_start s.
Proof.
  exists (tab44 44100 100 22050), (f_of_int 0), (f_of_int 1). split; [exists 44100, 100, 22050; cbn; repeat split; lia|].
  split; [reflexivity|]. cbv zeta. split; [exists 44100, 100, 22050; vm_compute; repeat split; congruence|].
  repeat split; try (vm_compute; congruence). exists 100, 22050. vm_compute. auto.
Qed.
Print Assumptions c54_stale_side_refuted.
(** Loading an audio in which no onset is found keeps the region of the audio
    before, which may lie outside of the new one. *)
Theorem c54_no_onset_refuted : exists s n, valid s /\ snd (gstep s (Load n 44100 [])) = Some ValueError /\
  ~ valid (fst (gstep s (Load n 44100 []))).
Proof.
  exists (tab44 44100 100 22050), 50. split; [exists 44100, 100, 22050; cbn; repeat split; lia|]. split; [reflexivity|].
  intros (n & a & b & En & Ea & Eb & H1 & H2). cbn in En, Ea, Eb. injection En as <-. injection Ea as <-. injection Eb as <-. lia.
Qed.
Print Assumptions c54_no_onset_refuted.
Example c54_region_example :
  let h := [Load 44100 44100 [100; 30000]; Type_ true None; Press false (Some S754_nan); Type_ false (Some (S754_infinity false));
            Press false (Some (f_of_int 0)); Release false None; Release false (Some (f_of_int 5))] in
  Forall good_event h /\ empty_tab (mkTrim None 0 None None None) /\
  loaded (grun (mkTrim None 0 None None None) h) = Some (44100, 29999, 30000).
Proof.
  cbv zeta. split; [|split; [repeat split|vm_compute; reflexivity]].
  constructor; [|repeat constructor]. cbn. split; [discriminate|]. split; repeat constructor; lia.
Qed.

(** ** C55 *)

(** [a] is a number less than [b]; at most [b]. *)
Definition below (a b : pfloat) : Prop :=
  match a, b with
  | PFin x, PFin y => (x < y)%Q
  | PFin _, PInf s => s = true
  | PInf s, PFin _ => s = false
  | PInf s, PInf t => s = false /\ t = true
  | _, _ => False
  end.
Definition same (a b : pfloat) : Prop :=
  match a, b with
  | PFin x, PFin y => (x == y)%Q
  | PInf s, PInf t => s = t
  | _, _ => False
  end.
Definition at_most (a b : pfloat) : Prop := below a b \/ same a b.

Lemma Qltb_iff : forall x y, Qltb x y = true <-> (x < y)%Q.
Proof.
  intros x y. unfold Qltb. destruct (Qle_bool y x) eqn:E; cbn [negb].
  - apply Qle_bool_iff in E. split; [discriminate|]. intro H. exfalso. exact (Qlt_not_le _ _ H E).
  - split; [|reflexivity]. intros _. apply Qnot_le_lt. intro H. apply Qle_bool_iff in H. congruence.
Qed.
Lemma p_lt_iff : forall a b, p_lt a b = true <-> below a b.
Proof.
  intros [x|s|] [y|t|]; cbn [p_lt below]; try (split; [discriminate|tauto]); [apply Qltb_iff|tauto| |].
  - destruct s; cbn; split; congruence.
  - destruct s, t; cbn; intuition congruence.
Qed.
Lemma p_eq_iff : forall a b, p_eq a b = true <-> same a b.
Proof.
  intros [x|s|] [y|t|]; cbn [p_eq same]; try (split; [discriminate|tauto]); [apply Qeq_bool_iff|].
  destruct s, t; cbn; intuition congruence.
Qed.
Lemma below_total : forall a b, a <> PNan -> b <> PNan -> below a b \/ same a b \/ below b a.
Proof.
  intros [x|s|] [y|t|] Ha Hb; try congruence; cbn [below same].
  - destruct (Q_dec x y) as [[H|H]|H]; auto.
  - destruct t; auto.
  - destruct s; auto.
  - destruct s, t; auto.
Qed.
Lemma same_refl : forall a, a <> PNan -> same a a.
Proof. intros [x|s|] H; cbn; [apply Qeq_refl|reflexivity|congruence]. Qed.
Lemma same_sym : forall a b, same a b -> same b a.
Proof. intros [x|s|] [y|t|]; cbn; try tauto; [apply Qeq_sym|congruence]. Qed.

(** A whole number is read from an entry: the number rounded down, and at least
    1.  Only a not-a-number and an infinite number break this, with an
    exception. *)
Theorem c55_positive_int : forall dflt x,
  custom_positive_int dflt x =
  match x with
  | None => Ok dflt
  | Some (PFin q) => Ok (Some (Z.max 1 (Qfloor q)))
  | Some (PInf false) => Ok (Some 1)
  | Some (PInf true) => Err OverflowError
  | Some PNan => Err ValueError
  end.
Proof.
  intros dflt [[q|s|]|]; try reflexivity; [|destruct s; reflexivity]. unfold custom_positive_int, p_max, pz. cbn [p_lt].
  destruct (Qltb q (inject_Z 1)) eqn:E.
  - apply Qltb_iff in E. cbn [p_int bind]. change (Qtrunc (inject_Z 1)) with 1. do 2 f_equal.
    assert (Qfloor q < 1); [|lia]. rewrite Zlt_Qlt. eapply Qle_lt_trans; [apply Qfloor_le|exact E].
  - assert (H : (inject_Z 1 <= q)%Q) by (apply Qnot_lt_le; intro H; apply Qltb_iff in H; congruence).
    cbn [p_int bind]. unfold Qtrunc. replace (Qle_bool 0 q) with true.
    2: { symmetry. apply Qle_bool_iff. eapply Qle_trans; [|exact H]. discriminate. }
    do 2 f_equal. apply Qfloor_resp_le in H. rewrite Qfloor_Z in H. lia.
Qed.
Print Assumptions c55_positive_int.

(** The least power of two that is not below the number read. *)
Definition whole (x : option pfloat) : Z := match x with Some (PFin q) => Z.max 1 (Qfloor q) | _ => 1 end.
Theorem c55_pow2 : forall x,
  match next_power_of_2 x with
  | Err e => (x = Some PNan /\ e = ValueError) \/ (x = Some (PInf true) /\ e = OverflowError)
  | Ok z => (exists k, 0 <= k /\ z = 2 ^ k) /\ whole x <= z /\ forall j, 0 <= j -> whole x <= 2 ^ j -> z <= 2 ^ j
  end.
Proof.
  assert (P : forall n, 1 <= n -> (exists k, 0 <= k /\ 2 ^ bit_length (n - 1) = 2 ^ k) /\ n <= 2 ^ bit_length (n - 1) /\
    forall j, 0 <= j -> n <= 2 ^ j -> 2 ^ bit_length (n - 1) <= 2 ^ j).
  { intros n Hn. assert (B : 0 <= bit_length (n - 1)) by (unfold bit_length; destruct (n - 1 =? 0); pose proof (Z.log2_nonneg (n - 1)); lia).
    split; [eauto|]. unfold bit_length in *. destruct (Z.eqb_spec (n - 1) 0) as [E|E].
    - split; [change (2 ^ 0) with 1; lia|]. intros j Hj _. change (2 ^ 0) with 1. pose proof (Z.pow_pos_nonneg 2 j). lia.
    - destruct (Z.log2_spec (n - 1)) as [L1 L2]; [lia|]. replace (Z.log2 (n - 1) + 1) with (Z.succ (Z.log2 (n - 1))) by lia. split; [lia|].
      intros j Hj H. apply Z.pow_le_mono_r; [lia|]. apply Z.le_succ_l. apply Z.log2_lt_pow2; lia. }
  intro x. unfold next_power_of_2. rewrite c55_positive_int. destruct x as [[q|[|]|]|]; cbn [bind whole]; auto; apply P; lia.
Qed.
Print Assumptions c55_pow2.

(** A strip time is none, or the positive number typed; a not-a-number is taken
    as a strip time. *)
Theorem c55_strip : forall x,
  match strip_time_parse x with
  | None => x = None \/ exists v, x = Some v /\ at_most v (pz 0)
  | Some v => x = Some v /\ (below (pz 0) v \/ v = PNan)
  end.
Proof.
  intros [v|]; [|now left]. unfold strip_time_parse. destruct (p_lt v (pz 0) || p_eq v (pz 0)) eqn:E.
  - right. exists v. split; [reflexivity|]. apply orb_true_iff in E. destruct E as [E|E]; [left; now apply p_lt_iff|right; now apply p_eq_iff].
  - split; [reflexivity|]. apply orb_false_iff in E. destruct E as [E1 E2].
    assert (D : v = PNan \/ v <> PNan) by (destruct v; [right|right|left]; congruence). destruct D as [->|N]; [now right|left].
    destruct (below_total v (pz 0)) as [H|[H|H]]; [exact N|discriminate| | |exact H].
    + apply p_lt_iff in H. congruence.
    + apply p_eq_iff in H. congruence.
Qed.
Print Assumptions c55_strip.
Theorem c55_strip_refuted : exists x v, strip_time_parse x = Some v /\ ~ below (pz 0) v.
Proof. exists (Some PNan), PNan. split; [reflexivity|]. intros []. Qed.
Print Assumptions c55_strip_refuted.

(** A clipped number lies between the limits, also for a not-a-number; a number
    between them is taken as it is. *)
Definition within (left right : option Q) (x : pfloat) : Prop :=
  (forall l, left = Some l -> at_most (PFin l) x) /\ (forall r, right = Some r -> at_most x (PFin r)).
Definition ordered (left right : option Q) : Prop := forall l r, left = Some l -> right = Some r -> (l <= r)%Q.
Lemma at_most_q : forall x y, (x <= y)%Q -> at_most (PFin x) (PFin y).
Proof. intros x y H. destruct (Qlt_le_dec x y) as [L|L]; [now left|right]. cbn. now apply Qle_antisym. Qed.
Lemma p_max_ge : forall l v, at_most (PFin l) (p_max (PFin l) v).
Proof.
  intros l v. unfold p_max. destruct (p_lt (PFin l) v) eqn:E; [left; now apply p_lt_iff|]. right. apply Qeq_refl.
Qed.
Lemma p_min_le : forall r v, at_most (p_min (PFin r) v) (PFin r).
Proof.
  intros r v. unfold p_min. destruct (p_lt v (PFin r)) eqn:E; [left; now apply p_lt_iff|]. right. apply Qeq_refl.
Qed.
Theorem c55_clip : forall left right default x, ordered left right ->
  (forall d, default = Some d -> within left right (PFin d)) ->
  within left right (float_clip left right default x) /\
  forall v, x = Some v -> v <> PNan -> within left right v -> same (float_clip left right default x) v.
Proof.
  intros left right default x O D. unfold float_clip. destruct x as [v|].
  - split.
    + destruct left as [l|], right as [r|]; split; intros ? [= <-]; try discriminate.
      * unfold p_min. destruct (p_lt (p_max (PFin l) v) (PFin r)); [apply p_max_ge|]. now apply at_most_q, O.
      * apply p_min_le.
      * apply p_max_ge.
      * apply p_min_le.
    + intros v' [= <-] N [W1 W2].
      assert (E1 : same (match left with Some l => p_max (PFin l) v | None => v end) v).
      { destruct left as [l|]; [|now apply same_refl]. unfold p_max. destruct (p_lt (PFin l) v) eqn:E; [now apply same_refl|].
        destruct (W1 l eq_refl) as [H|H]; [apply p_lt_iff in H; congruence|exact H]. }
      destruct right as [r|]; [|exact E1]. set (u := match left with Some l => p_max (PFin l) v | None => v end) in *.
      unfold p_min. destruct (p_lt u (PFin r)) eqn:E; [exact E1|].
      destruct (W2 r eq_refl) as [H|H]; [|apply same_sym, H]. exfalso. assert (below u (PFin r)); [|apply p_lt_iff in H0; congruence].
      clear - E1 H. destruct u as [a|s|], v as [b|t|]; cbn in *; try tauto; [|congruence]. now rewrite E1.
  - split; [|intros v [=]]. unfold clip_default. destruct default as [d|]; [now apply D|].
    destruct left as [l|], right as [r|]; split; intros ? [= <-]; try discriminate; try (apply at_most_q, Qle_refl).
    + specialize (O l r eq_refl eq_refl). apply at_most_q. setoid_replace l with ((l + l) / 2)%Q at 1 by field.
      unfold Qdiv. apply Qmult_le_compat_r; [|discriminate]. now apply Qplus_le_compat; [apply Qle_refl|].
    + specialize (O l r eq_refl eq_refl). apply at_most_q. setoid_replace r with ((r + r) / 2)%Q at 2 by field.
      unfold Qdiv. apply Qmult_le_compat_r; [|discriminate]. now apply Qplus_le_compat; [|apply Qle_refl].
Qed.
Print Assumptions c55_clip.

(** The frequency bounds are ordered and distinct: the two numbers typed, or the
    default if they are equal.  A not-a-number breaks this. *)
Theorem c55_fbound : forall a b, a <> PNan -> b <> PNan ->
  let '(lo, hi) := fbound a b in
  below lo hi /\
  ((same a b /\ lo = pz 20 /\ hi = pz 16000) \/ (~ same a b /\ ((lo = a /\ hi = b) \/ (lo = b /\ hi = a)))).
Proof.
  intros a b Ha Hb. unfold fbound. destruct (p_lt b a) eqn:E.
  - apply p_lt_iff in E. split; [exact E|]. right. split; [|auto]. intro S. destruct a as [x|s|], b as [y|t|]; cbn in *; try tauto.
    + rewrite S in E. now apply Qlt_irrefl in E.
    + destruct E; congruence.
  - destruct (p_eq a b) eqn:F.
    + apply p_eq_iff in F. split; [reflexivity|]. now left.
    + assert (S : ~ same a b) by (intro S; apply p_eq_iff in S; congruence). split; [|now right; auto].
      destruct (below_total a b Ha Hb) as [H|[H|H]]; [exact H|tauto|]. apply p_lt_iff in H. congruence.
Qed.
Print Assumptions c55_fbound.
Theorem c55_fbound_refuted : exists a b, let '(lo, hi) := fbound a b in ~ below lo hi.
Proof. exists PNan, (pz 100). intros []. Qed.
Print Assumptions c55_fbound_refuted.

(** The window: for whole sizes that are at least 1 the loop ends, the window
    is not larger than the FFT, and has the type asked for if there is such a
    window. *)
Definition blackman_ok (get_window : string -> Q -> bool) : Prop := forall z, 0 <= z -> get_window "blackman"%string (inject_Z z) = true.
Lemma window_steps : forall get_window fuel ty m, blackman_ok get_window -> (2 <= fuel)%nat -> 1 <= m ->
  window_loop get_window fuel ty (inject_Z m) =
  Some (if get_window ty (inject_Z m) then ty else "blackman"%string, inject_Z m).
Proof.
  intros gw fuel ty m B Hf Hm. destruct fuel as [|[|fuel]]; [lia|lia|]. cbn [window_loop].
  destruct (gw ty (inject_Z m)); [reflexivity|]. replace (Qltb (inject_Z m) 1) with false.
  - rewrite B by lia. reflexivity.
  - symmetry. destruct (Qltb (inject_Z m) 1) eqn:E; [|reflexivity]. apply Qltb_iff in E. change 1%Q with (inject_Z 1) in E.
    rewrite <- Zlt_Qlt in E. lia.
Qed.
Lemma Qltb_z : forall a b, Qltb (inject_Z a) (inject_Z b) = (a <? b).
Proof.
  intros a b. destruct (Z.ltb_spec a b) as [H|H].
  - apply Qltb_iff. now rewrite <- Zlt_Qlt.
  - destruct (Qltb (inject_Z a) (inject_Z b)) eqn:E; [|reflexivity]. apply Qltb_iff in E. rewrite <- Zlt_Qlt in E. lia.
Qed.
Theorem c55_windows : forall get_window fuel n size ty, blackman_ok get_window -> (2 <= fuel)%nat -> 1 <= n -> 1 <= size ->
  exists ty', windows get_window fuel (inject_Z n) (inject_Z size) ty = Some (ty', inject_Z (Z.min n size)) /\
  get_window ty' (inject_Z (Z.min n size)) = true /\
  (ty' = ty \/ (get_window ty (inject_Z (Z.min n size)) = false /\ ty' = "blackman"%string)).
Proof.
  intros gw fuel n size ty B Hf Hn Hs. unfold windows. rewrite Qltb_z.
  replace (if n <? size then inject_Z n else inject_Z size) with (inject_Z (Z.min n size))
    by (destruct (Z.ltb_spec n size); f_equal; lia).
  rewrite window_steps by (assumption || lia). eexists. split; [reflexivity|].
  destruct (gw ty (inject_Z (Z.min n size))) eqn:E; [auto|]. split; [apply B; lia|auto].
Qed.
Print Assumptions c55_windows.
(** Settings read from the file are not parsed.  A size that is not whole (no
    window has such a size) makes the loop run forever; a negative size gives
    a window that is larger than the FFT. *)
Theorem c55_window_loop_refuted : exists n size, (1 <= size <= n)%Q /\
  forall get_window ty, (forall t q, (exists z, q == inject_Z z)%Q \/ get_window t q = false) ->
  forall fuel, windows get_window fuel n size ty = None.
Proof.
  exists 2048%Q, (21 # 2)%Q. split; [split; discriminate|]. intros gw ty H fuel. unfold windows.
  change (Qltb 2048 (21 # 2)) with false. cbv iota.
  assert (G : forall t, gw t (21 # 2)%Q = false).
  { intro t. destruct (H t (21 # 2)%Q) as [[z E]|E]; [|exact E]. unfold Qeq in E. cbn in E. lia. }
  revert ty. induction fuel as [|fuel IH]; intro ty; [reflexivity|]. cbn [window_loop]. rewrite G. change (Qltb (21 # 2) 1) with false. apply IH.
Qed.
Print Assumptions c55_window_loop_refuted.
Theorem c55_window_size_refuted : exists n size, (1 <= n)%Q /\
  forall get_window ty fuel, (forall t z, get_window t (inject_Z z) = (0 <=? z)) -> (2 <= fuel)%nat ->
  exists q, windows get_window fuel n size ty = Some (ty, q) /\ (n < q)%Q.
Proof.
  exists 1024%Q, (inject_Z (-1)). split; [discriminate|]. intros gw ty fuel H Hf. exists 4096%Q. split; [|reflexivity].
  destruct fuel as [|[|fuel]]; [lia|lia|]. unfold windows. change (Qltb 1024 (inject_Z (-1))) with false. cbv iota. cbn [window_loop].
  rewrite H. change (Qltb (inject_Z (-1)) 1) with true. cbv iota. change 4096%Q with (inject_Z 4096). rewrite H. reflexivity.
Qed.
Print Assumptions c55_window_size_refuted.
Example c55_parsers_example :
  next_power_of_2 (Some (PFin (2049 # 2))) = Ok 1024 /\ next_power_of_2 (Some (PFin 1025)) = Ok 2048 /\
  custom_positive_int None None = Ok None /\ float_clip (Some 2%Q) (Some 50%Q) (Some 12%Q) (Some PNan) = PFin 2 /\
  fbound (pz 500) (pz 20) = (pz 20, pz 500) /\
  windows (fun t q => String.eqb t "blackman") 2 (inject_Z 1024) (inject_Z 4096) "kaiser" = Some ("blackman"%string, inject_Z 1024).
Proof. repeat split. Qed.

(** *** The callback *)
Local Open Scope string_scope.
Definition int_entry (k : kind) : Prop := match k with KPosInt _ | KPow2 => True | _ => False end.
(** Names of the parameters that the callback makes for the model. *)
Definition param_names : list string :=
  ["max_n_modes"; "sinusoidal__tracker__max_n_sines"; "sinusoidal__tracker__h"; "sinusoidal__tracker__freq_dev_offset";
   "sinusoidal__tracker__freq_dev_slope"; "sinusoidal__tracker__peak_threshold"; "sinusoidal__t"; "sinusoidal__tracker__min_sine_dur";
   "sinusoidal__tracker__strip_t"; "sinusoidal__tracker__reverse"; "sinusoidal__padded"; "beatsdrop"; "beat_decisor__th"; "beatsdrop__lpf";
   "n_jobs"; "sinusoidal__n"; "sinusoidal__w"; "sinusoidal__tracker__frequency_bounds"].
Definition pos_int (d : dict sval) (k : string) : Prop := exists z, dget k d = Some (SInt z) /\ 1 <= z.
Definition clipped (d : dict sval) (k : string) (l r : option Q) : Prop := exists x, dget k d = Some (SFloat x) /\ within l r x.

Lemma read_all_nil : forall float_of entries sp, (forall k kd, In (k, kd) sp -> exists v, read float_of kd (entries k) = Ok v) ->
  exists d, read_all float_of [] entries sp = Ok d /\ dkeys d = map fst sp /\
  Forall2 (fun p s => fst p = fst s /\ read float_of (snd s) (entries (fst s)) = Ok (snd p)) d sp.
Proof.
  intros float_of entries sp. induction sp as [|[k kd] sp IH]; intro H; [exists []; repeat split; constructor|].
  destruct (H k kd (or_introl eq_refl)) as [v Ev]. destruct IH as (d & Ed & K & F); [intros; apply H; now right|].
  exists ((k, v) :: d). cbn [read_all]. rewrite Ev. cbn [bind]. rewrite Ed. cbn [bind dget]. split; [reflexivity|].
  cbn [dkeys map fst]. split; [unfold dkeys in K; now rewrite K|]. constructor; [now split|exact F].
Qed.
Lemma read_all_err : forall float_of file entries sp e, read_all float_of file entries sp = Err e ->
  exists k kd, In (k, kd) sp /\ read float_of kd (entries k) = Err e.
Proof.
  intros float_of file entries sp e. induction sp as [|[k kd] sp IH]; [discriminate|]. cbn [read_all].
  destruct (read float_of kd (entries k)) as [v|e'] eqn:E; cbn [bind]; [|intros [= <-]; exists k, kd; split; [now left|exact E]].
  destruct (read_all float_of file entries sp) as [d|e'] eqn:E'; cbn [bind]; [discriminate|]. intros [= <-].
  destruct IH as (k' & kd' & H & R); [reflexivity|]. exists k', kd'. split; [now right|exact R].
Qed.
Lemma read_err : forall float_of kd en e, read float_of kd en = Err e ->
  int_entry kd /\ ((float_of (e_text en) = Some PNan /\ e = ValueError) \/ (float_of (e_text en) = Some (PInf true) /\ e = OverflowError)).
Proof.
  intros float_of kd en e. destruct kd as [dflt| | | | | |]; cbn [read]; try discriminate.
  - rewrite c55_positive_int. destruct (float_of (e_text en)) as [[q|[|]|]|]; cbn [bind]; intros [= <-]; cbn; auto.
  - pose proof (c55_pow2 (float_of (e_text en))) as H. destruct (next_power_of_2 (float_of (e_text en))) as [z|x]; cbn [bind]; intros [= <-].
    cbn. destruct H as [[-> ->]|[-> ->]]; auto.
Qed.
Lemma pow2_ok : forall x z, next_power_of_2 x = Ok z -> exists k, 0 <= k /\ z = 2 ^ k.
Proof. intros x z E. pose proof (c55_pow2 x) as H. rewrite E in H. tauto. Qed.
Lemma pos_ok : forall dflt x i, custom_positive_int dflt x = Ok i -> (i = dflt /\ x = None) \/ exists z, i = Some z /\ 1 <= z.
Proof.
  intros dflt x i. rewrite c55_positive_int. destruct x as [[q|[|]|]|]; intros [= <-]; auto; right; eexists; (split; [reflexivity|lia]).
Qed.
Lemma clip_within : forall l r d x, ordered l r -> within l r (PFin d) -> within l r (float_clip l r (Some d) x).
Proof. intros l r d x O W. apply (c55_clip l r (Some d) x O). intros d' [= <-]. exact W. Qed.

(** The settings as they are read. *)
Definition read_settings (v_modes : sval) (v_sines n v_h size jobs : Z) (ty theme : string) (offs slope a b pk t dur th lpf : pfloat)
    (strip_t : sval) (rev_ pad beats par : bool) : dict sval :=
  [("max_n_modes", v_modes); ("sinusoidal__tracker__max_n_sines", SInt v_sines); ("sinusoidal__n", SInt n);
   ("sinusoidal__tracker__h", SInt v_h); ("wsize", SInt size); ("wtype", SStr ty); ("sinusoidal__tracker__freq_dev_offset", SFloat offs);
   ("sinusoidal__tracker__freq_dev_slope", SFloat slope); ("smfb_0", SFloat a); ("smfb_1", SFloat b);
   ("sinusoidal__tracker__peak_threshold", SFloat pk); ("sinusoidal__t", SFloat t);
   ("sinusoidal__tracker__min_sine_dur", SFloat dur); ("sinusoidal__tracker__strip_t", strip_t);
   ("sinusoidal__tracker__reverse", SBool rev_); ("sinusoidal__padded", SBool pad); ("beatsdrop", SBool beats);
   ("parallel", SBool par); ("n_jobs", SInt jobs); ("beat_decisor__th", SFloat th); ("beatsdrop__lpf", SFloat lpf); ("gui_theme", SStr theme)].
Definition made_params (v_modes : sval) (v_sines n v_h size jobs : Z) (ty : string) (offs slope lo hi pk t dur th lpf : pfloat)
    (strip_t : sval) (rev_ pad beats par : bool) : dict sval :=
  [("max_n_modes", v_modes); ("sinusoidal__tracker__max_n_sines", SInt v_sines);
   ("sinusoidal__tracker__h", SInt v_h); ("sinusoidal__tracker__freq_dev_offset", SFloat offs);
   ("sinusoidal__tracker__freq_dev_slope", SFloat slope); ("sinusoidal__tracker__peak_threshold", SFloat pk); ("sinusoidal__t", SFloat t);
   ("sinusoidal__tracker__min_sine_dur", SFloat dur); ("sinusoidal__tracker__strip_t", strip_t);
   ("sinusoidal__tracker__reverse", SBool rev_); ("sinusoidal__padded", SBool pad); ("beatsdrop", SBool beats);
   ("beat_decisor__th", SFloat th); ("beatsdrop__lpf", SFloat lpf); ("n_jobs", SInt (if par then jobs else 0)); ("sinusoidal__n", SInt n);
   ("sinusoidal__w", SWin ty size); ("sinusoidal__tracker__frequency_bounds", SPair lo hi)].
Lemma posts_run : forall get_window fuel vt v_modes v_sines n v_h size jobs ty theme offs slope a b pk t dur th lpf strip_t rev_ pad beats par ty' m lo hi,
  windows get_window fuel (inject_Z n) (inject_Z size) ty = Some (ty', inject_Z m) -> fbound a b = (lo, hi) ->
  let s := read_settings v_modes v_sines n v_h size jobs ty theme offs slope a b pk t dur th lpf strip_t rev_ pad beats par in
  foldM post_step (s, s) (posts get_window fuel vt) =
  Ok (read_settings v_modes v_sines n v_h m jobs ty' (if vt theme then theme else "") offs slope lo hi pk t dur th lpf strip_t rev_ pad beats par,
      made_params v_modes v_sines n v_h m jobs ty' offs slope lo hi pk t dur th lpf strip_t rev_ pad beats par).
Proof.
  intros gw fuel vt v_modes v_sines n v_h size jobs ty theme offs slope a b pk t dur th lpf strip_t rev_ pad beats par ty' m lo hi W F.
  cbv zeta. unfold read_settings. cbn -[windows fbound Qfloor Qltb inject_Z p_lt p_eq]. rewrite W.
  cbn -[windows fbound Qfloor Qltb inject_Z p_lt p_eq]. rewrite F. cbn -[windows fbound Qfloor Qltb inject_Z p_lt p_eq].
  rewrite Qltb_z. assert (Q : of_q (if (n <? size)%Z then SInt n else SInt size) (inject_Z m) = SInt m)
    by (destruct (n <? size)%Z; cbn [of_q]; now rewrite Qfloor_Z).
  rewrite Q, Qfloor_Z. unfold made_params. destruct par; reflexivity.
Qed.
Lemma read_specs : forall float_of entries,
  (forall k kd, In (k, kd) specs -> exists v, read float_of kd (entries k) = Ok v) ->
  let x k := float_of (e_text (entries k)) in
  exists v_modes v_sines kn v_h size jobs,
    read_all float_of [] entries specs =
    Ok (read_settings v_modes v_sines (2 ^ kn) v_h size jobs (e_text (entries "wtype")) (e_text (entries "gui_theme"))
      (try_float (x "sinusoidal__tracker__freq_dev_offset")) (try_float (x "sinusoidal__tracker__freq_dev_slope"))
      (try_float (x "smfb_0")) (try_float (x "smfb_1")) (try_float (x "sinusoidal__tracker__peak_threshold")) (try_float (x "sinusoidal__t"))
      (float_clip (Some 0%Q) None (Some (1 # 10)%Q) (x "sinusoidal__tracker__min_sine_dur"))
      (float_clip (Some 0%Q) None (Some 4%Q) (x "beat_decisor__th")) (float_clip (Some 2%Q) (Some 50%Q) (Some 12%Q) (x "beatsdrop__lpf"))
      (match strip_time_parse (x "sinusoidal__tracker__strip_t") with Some v => SFloat v | None => SNone end)
      (e_bool (entries "sinusoidal__tracker__reverse")) (e_bool (entries "sinusoidal__padded")) (e_bool (entries "beatsdrop"))
      (e_bool (entries "parallel"))) /\
    (v_modes = SNone \/ exists z, v_modes = SInt z /\ 1 <= z) /\ 1 <= v_sines /\ 0 <= kn /\ 1 <= v_h /\ 1 <= size /\ 1 <= jobs /\
    custom_positive_int None (x "max_n_modes") = Ok (match v_modes with SInt z => Some z | _ => None end) /\
    custom_positive_int (Some 1) (x "sinusoidal__tracker__max_n_sines") = Ok (Some v_sines) /\
    next_power_of_2 (x "sinusoidal__n") = Ok (2 ^ kn) /\ custom_positive_int (Some 1) (x "sinusoidal__tracker__h") = Ok (Some v_h) /\
    custom_positive_int (Some 1) (x "wsize") = Ok (Some size) /\ custom_positive_int (Some 4) (x "n_jobs") = Ok (Some jobs).
Proof.
  intros float_of entries H. cbv zeta.
  assert (PI : forall k d, In (k, KPosInt (Some d)) specs -> 1 <= d ->
    exists z, custom_positive_int (Some d) (float_of (e_text (entries k))) = Ok (Some z) /\ 1 <= z).
  { intros k d I Hd. destruct (H _ _ I) as [v E]. cbn [read] in E.
    destruct (custom_positive_int (Some d) (float_of (e_text (entries k)))) as [i|e] eqn:C; [|discriminate].
    destruct (pos_ok _ _ _ C) as [[-> _]|(z & -> & Hz)]; eauto. }
  assert (P2 : exists kn, next_power_of_2 (float_of (e_text (entries "sinusoidal__n"))) = Ok (2 ^ kn) /\ 0 <= kn).
  { destruct (H "sinusoidal__n" KPow2) as [v E]; [cbn; tauto|]. cbn [read] in E.
    destruct (next_power_of_2 (float_of (e_text (entries "sinusoidal__n")))) as [z|e] eqn:C; [|discriminate].
    destruct (pow2_ok _ _ C) as (k & Hk & ->). eauto. }
  destruct P2 as (kn & En & Hkn).
  destruct (PI "sinusoidal__tracker__max_n_sines" 1) as (v_sines & Es & Hs); [cbn; tauto|lia|].
  destruct (PI "sinusoidal__tracker__h" 1) as (v_h & Eh & Hh); [cbn; tauto|lia|].
  destruct (PI "wsize" 1) as (size & Ez & Hz); [cbn; tauto|lia|].
  destruct (PI "n_jobs" 4) as (jobs & Ej & Hj); [cbn; tauto|lia|].
  assert (PM : exists v, custom_positive_int None (float_of (e_text (entries "max_n_modes"))) = Ok (match v with SInt z => Some z | _ => None end) /\
    (v = SNone \/ exists z, v = SInt z /\ 1 <= z)).
  { destruct (H "max_n_modes" (KPosInt None)) as [v E]; [cbn; tauto|]. cbn [read] in E.
    destruct (custom_positive_int None (float_of (e_text (entries "max_n_modes")))) as [i|e] eqn:C; [|discriminate].
    destruct (pos_ok _ _ _ C) as [[-> _]|(z & -> & Hm)]; [exists SNone; auto|exists (SInt z)]. split; [reflexivity|eauto]. }
  destruct PM as (v_modes & Em & Hm).
  exists v_modes, v_sines, kn, v_h, size, jobs. split; [|auto 20].
  unfold specs. cbn [read_all read dget]. rewrite Em, Es, En, Eh, Ez, Ej. cbn [bind]. unfold read_settings. do 3 f_equal.
  destruct Hm as [->|(z & -> & _)]; reflexivity.
Qed.

(** For every text in every entry, the callback raises only if an entry for a
    whole number contains a not-a-number or an infinite number.  Otherwise the
    model gets exactly the parameters named above, with valid values: the FFT
    size is a power of two, the window fits, the numbers of sines, modes and
    jobs and the hop are positive, the bounds are ordered; a not-a-number for a
    bound or for the strip time is the exception.  The settings shown are
    those given to the model. *)
Theorem c55_apply : forall float_of get_window fuel vt prev entries, blackman_ok get_window -> (2 <= fuel)%nat ->
  let x k := float_of (e_text (entries k)) in
  match apply_cbk float_of get_window fuel vt prev [] entries with
  | Err e => exists k kd, In (k, kd) specs /\ int_entry kd /\
      ((x k = Some PNan /\ e = ValueError) \/ (x k = Some (PInf true) /\ e = OverflowError))
  | Ok (settings, params) =>
    dkeys params = param_names /\ dkeys settings = map fst specs /\
    (exists k size ty, 0 <= k /\ dget "sinusoidal__n" params = Some (SInt (2 ^ k)) /\ whole (x "sinusoidal__n") <= 2 ^ k /\
       dget "sinusoidal__w" params = Some (SWin ty size) /\ 1 <= size <= 2 ^ k /\ get_window ty (inject_Z size) = true /\
       dget "wsize" settings = Some (SInt size) /\ dget "wtype" settings = Some (SStr ty)) /\
    pos_int params "sinusoidal__tracker__h" /\ pos_int params "sinusoidal__tracker__max_n_sines" /\
    (dget "max_n_modes" params = Some SNone \/ pos_int params "max_n_modes") /\
    (if e_bool (entries "parallel") then pos_int params "n_jobs" else dget "n_jobs" params = Some (SInt 0)) /\
    clipped params "sinusoidal__tracker__min_sine_dur" (Some 0%Q) None /\ clipped params "beat_decisor__th" (Some 0%Q) None /\
    clipped params "beatsdrop__lpf" (Some 2%Q) (Some 50%Q) /\
    (dget "sinusoidal__tracker__strip_t" params = Some SNone \/
     exists v, dget "sinusoidal__tracker__strip_t" params = Some (SFloat v) /\
       (below (pz 0) v \/ x "sinusoidal__tracker__strip_t" = Some PNan)) /\
    (exists lo hi, dget "sinusoidal__tracker__frequency_bounds" params = Some (SPair lo hi) /\
       dget "smfb_0" settings = Some (SFloat lo) /\ dget "smfb_1" settings = Some (SFloat hi) /\
       (below lo hi \/ x "smfb_0" = Some PNan \/ x "smfb_1" = Some PNan)) /\
    forall k v v', dget k params = Some v -> dget k settings = Some v' -> k = "n_jobs" \/ v = v'
  end.
Proof.
  intros float_of gw fuel vt prev entries B Hf. cbv zeta. unfold apply_cbk.
  destruct (read_all float_of [] entries specs) as [d|e] eqn:R.
  2: { cbn [bind]. destruct (read_all_err _ _ _ _ _ R) as (k & kd & I & E). exists k, kd. split; [exact I|]. now apply read_err. }
  assert (H : forall k kd, In (k, kd) specs -> exists v, read float_of kd (entries k) = Ok v).
  { clear -R. revert d R. generalize specs. induction l as [|[k0 kd0] l IH]; intros d R k kd I; [destruct I|]. cbn [read_all] in R.
    destruct (read float_of kd0 (entries k0)) as [v|e] eqn:E; [|discriminate]. cbn [bind] in R.
    destruct (read_all float_of [] entries l) as [d'|e] eqn:E'; [|discriminate]. destruct I as [[= <- <-]|I]; [eauto|]. eapply IH; eauto. }
  destruct (read_specs float_of entries H) as (v_modes & v_sines & kn & v_h & size & jobs & E & M & Hs & Hk & Hh & Hz & Hj & _ & _ & En & _).
  rewrite E in R. injection R as <-. cbn [bind].
  assert (H2 : 1 <= 2 ^ kn) by (pose proof (Z.pow_pos_nonneg 2 kn); lia).
  destruct (c55_windows gw fuel (2 ^ kn) size (e_text (entries "wtype")) B Hf H2 Hz) as (ty & W & G & _).
  destruct (fbound (try_float (float_of (e_text (entries "smfb_0")))) (try_float (float_of (e_text (entries "smfb_1"))))) as [lo hi] eqn:F.
  rewrite (posts_run _ _ _ _ _ _ _ _ _ _ _ _ _ _ _ _ _ _ _ _ _ _ _ _ _ _ _ _ _ W F). cbn [bind].
  set (theme := if vt (e_text (entries "gui_theme")) then e_text (entries "gui_theme") else "").
  match goal with |- context [dget "gui_theme" ?S] => change (dget "gui_theme" S) with (Some (SStr theme)) end. cbv iota.
  match goal with |- context [made_params ?a ?b ?c ?d ?e ?f ?g ?h ?i ?j ?k ?l ?m ?n ?o ?p ?q ?r ?s ?t ?u] =>
    set (params := made_params a b c d e f g h i j k l m n o p q r s t u) end.
  match goal with |- context [if String.eqb theme "" then dset "gui_theme" (SStr prev) ?S else ?S] =>
    set (settings := if String.eqb theme "" then dset "gui_theme" (SStr prev) S else S);
    assert (Sk : forall k, k <> "gui_theme" -> dget k settings = dget k S);
    [intros k0 Nk; unfold settings; destruct (String.eqb theme ""); [rewrite dget_dset; destruct (String.eqb_spec "gui_theme" k0); [congruence|]|]; reflexivity|];
    assert (Kk : dkeys settings = dkeys S) by (unfold settings; destruct (String.eqb theme ""); reflexivity) end.
  split; [reflexivity|]. split; [rewrite Kk; reflexivity|]. split.
  { exists kn, (Z.min (2 ^ kn) size), ty. split; [exact Hk|]. split; [reflexivity|].
    split; [pose proof (c55_pow2 (float_of (e_text (entries "sinusoidal__n")))) as P; rewrite En in P; tauto|].
    split; [reflexivity|]. split; [lia|]. split; [exact G|]. split; (rewrite Sk by discriminate; reflexivity). }
  split; [exists v_h; split; [reflexivity|exact Hh]|]. split; [exists v_sines; split; [reflexivity|exact Hs]|].
  split; [destruct M as [->|(z & -> & Hm)]; [left; reflexivity|right; exists z; split; [reflexivity|exact Hm]]|].
  split; [destruct (e_bool (entries "parallel")) eqn:P; [exists jobs; split; [|exact Hj]|]; unfold params, made_params; cbn [dget String.eqb]; reflexivity|].
  split; [eexists; split; [reflexivity|]; apply clip_within; [intros l r _ [=]|split; intros ? [= <-]; apply at_most_q; discriminate]|].
  split; [eexists; split; [reflexivity|]; apply clip_within; [intros l r _ [=]|split; intros ? [= <-]; apply at_most_q; discriminate]|].
  split; [eexists; split; [reflexivity|]; apply clip_within; [intros l r [= <-] [= <-]; discriminate|split; intros ? [= <-]; apply at_most_q; discriminate]|].
  split.
  { pose proof (c55_strip (float_of (e_text (entries "sinusoidal__tracker__strip_t")))) as St.
    destruct (strip_time_parse (float_of (e_text (entries "sinusoidal__tracker__strip_t")))) as [v|]; [right; exists v|left; reflexivity].
    split; [reflexivity|]. destruct St as [Es [St|St]]; [now left|right]. now rewrite Es, St. }
  split.
  { exists lo, hi. split; [reflexivity|]. split; [rewrite Sk by discriminate; reflexivity|]. split; [rewrite Sk by discriminate; reflexivity|].
    assert (D : forall o : option pfloat, try_float o <> PNan \/ o = Some PNan) by (intros [[| |]|]; cbn; auto; left; discriminate).
    destruct (D (float_of (e_text (entries "smfb_0")))) as [Na|Na]; [|auto].
    destruct (D (float_of (e_text (entries "smfb_1")))) as [Nb|Nb]; [|auto].
    left. pose proof (c55_fbound _ _ Na Nb) as P. rewrite F in P. tauto. }
  intros k v v' Hp Hv. destruct (String.eqb_spec k "n_jobs") as [->|Nj]; [now left|right].
  assert (Ng : k <> "gui_theme") by (intros ->; discriminate). rewrite Sk in Hv by exact Ng. clear Sk Kk settings.
  unfold params, made_params in Hp. unfold read_settings in Hv. cbn [dget] in Hp, Hv.
  repeat match type of Hp with
  | (if String.eqb ?a k then _ else _) = _ => destruct (String.eqb_spec a k) as [<-|]; [cbn in Hv; congruence|]
  end. discriminate.
Qed.
Print Assumptions c55_apply.

(** Pressing Apply again, on the settings that are shown, changes nothing: if the
    text shown for a number is read back as this number (and that for none is
    not a number), the callback gives the same settings and parameters. *)
Definition shows (float_of : string -> option pfloat) (en : entry) (v : sval) : Prop :=
  match v with
  | SNone => float_of (e_text en) = None
  | SBool b => e_bool en = b
  | SInt z => float_of (e_text en) = Some (pz z)
  | SFloat x => float_of (e_text en) = Some x
  | SStr s => e_text en = s
  | _ => True
  end.
Lemma pos_again : forall dflt z, 1 <= z -> custom_positive_int dflt (Some (pz z)) = Ok (Some z).
Proof. intros dflt z H. rewrite c55_positive_int. unfold pz. rewrite Qfloor_Z. do 2 f_equal. lia. Qed.
Lemma pow2_again : forall k, 0 <= k -> next_power_of_2 (Some (pz (2 ^ k))) = Ok (2 ^ k).
Proof.
  intros k Hk. pose proof (c55_pow2 (Some (pz (2 ^ k)))) as H. destruct (next_power_of_2 (Some (pz (2 ^ k)))) as [z|e].
  - f_equal. destruct H as (_ & H1 & H2). cbn [whole pz] in *. rewrite Qfloor_Z in *. pose proof (Z.pow_pos_nonneg 2 k). specialize (H2 k Hk). lia.
  - destruct H as [[[=] _]|[[=] _]].
Qed.
Lemma fbound_again : forall a b lo hi, fbound a b = (lo, hi) -> fbound lo hi = (lo, hi).
Proof.
  intros a b lo hi. unfold fbound. destruct (p_lt b a) eqn:E.
  - intros [= <- <-]. replace (p_lt a b) with false; [replace (p_eq b a) with false; [reflexivity|]|].
    + symmetry. destruct (p_eq b a) eqn:F; [|reflexivity]. apply p_eq_iff in F. apply p_lt_iff in E.
      destruct a as [x|s|], b as [y|t|]; cbn in *; try tauto; [rewrite F in E; now apply Qlt_irrefl in E|destruct E; congruence].
    + symmetry. destruct (p_lt a b) eqn:F; [|reflexivity]. apply p_lt_iff in E, F.
      destruct a as [x|s|], b as [y|t|]; cbn in *; try tauto; try congruence; [|destruct E, F; congruence].
      exfalso. apply (Qlt_irrefl x). eapply Qlt_trans; eassumption.
  - destruct (p_eq a b) eqn:F; [intros [= <- <-]; reflexivity|]. intros [= <- <-]. now rewrite E, F.
Qed.
Lemma strip_again : forall x v, strip_time_parse x = Some v -> strip_time_parse (Some v) = Some v.
Proof. intros [u|] v; [|discriminate]. unfold strip_time_parse. destruct (p_lt u (pz 0) || p_eq u (pz 0)) eqn:E; [discriminate|]. intros [= ->]. now rewrite E. Qed.
Lemma clip_again : forall l r d x, (l < d)%Q -> match r with Some r => (d < r)%Q | None => True end ->
  float_clip (Some l) r (Some d) (Some (float_clip (Some l) r (Some d) x)) = float_clip (Some l) r (Some d) x.
Proof.
  intros l r d x Hl Hr.
  assert (G : forall u, u = PFin l \/ p_lt (PFin l) u = true -> p_max (PFin l) u = u).
  { intros u [->|H]; unfold p_max; [destruct (p_lt (PFin l) (PFin l)); reflexivity|now rewrite H]. }
  assert (K : forall u, match r with Some r => u = PFin r \/ p_lt u (PFin r) = true | None => True end ->
    match r with Some r => p_min (PFin r) u | None => u end = u).
  { intros u Hu. destruct r as [r|]; [|reflexivity]. unfold p_min. destruct Hu as [->|Hu]; [destruct (p_lt (PFin r) (PFin r)); reflexivity|now rewrite Hu]. }
  destruct x as [v|].
  - cbn [float_clip]. set (m := p_max (PFin l) v).
    assert (Hm : m = PFin l \/ p_lt (PFin l) m = true) by (unfold m, p_max; destruct (p_lt (PFin l) v) eqn:E; auto).
    set (u := match r with Some r => p_min (PFin r) m | None => m end).
    assert (Hu : (u = PFin l \/ p_lt (PFin l) u = true) /\ match r with Some r => u = PFin r \/ p_lt u (PFin r) = true | None => True end).
    { unfold u. destruct r as [r|]; [|auto]. unfold p_min. destruct (p_lt m (PFin r)) eqn:E; [auto|]. split; [right|now left].
      cbn [p_lt]. apply Qltb_iff. eapply Qlt_trans; eassumption. }
    destruct Hu as [Hu1 Hu2]. rewrite G by exact Hu1. now apply K.
  - cbn [float_clip clip_default]. rewrite G by (right; cbn; now apply Qltb_iff). apply K.
    destruct r; [right; cbn; now apply Qltb_iff|exact I].
Qed.
Theorem c55_again : forall float_of get_window fuel vt prev entries settings params entries' theme,
  blackman_ok get_window -> (2 <= fuel)%nat ->
  apply_cbk float_of get_window fuel vt prev [] entries = Ok (settings, params) ->
  (forall k v, dget k settings = Some v -> shows float_of (entries' k) v) ->
  dget "gui_theme" settings = Some (SStr theme) ->
  apply_cbk float_of get_window fuel vt theme [] entries' = Ok (settings, params).
Proof.
  intros float_of gw fuel vt prev entries settings params entries' theme' B Hf A S Th. unfold apply_cbk in A.
  destruct (read_all float_of [] entries specs) as [d|e] eqn:R; [|discriminate].
  assert (H : forall k kd, In (k, kd) specs -> exists v, read float_of kd (entries k) = Ok v).
  { clear -R. revert d R. generalize specs. induction l as [|[k0 kd0] l IH]; intros d R k kd I; [destruct I|]. cbn [read_all] in R.
    destruct (read float_of kd0 (entries k0)) as [v|e] eqn:E; [|discriminate]. cbn [bind] in R.
    destruct (read_all float_of [] entries l) as [d'|e] eqn:E'; [|discriminate]. destruct I as [[= <- <-]|I]; [eauto|]. eapply IH; eauto. }
  destruct (read_specs float_of entries H) as (v_modes & v_sines & kn & v_h & size & jobs & E & M & Hs & Hk & Hh & Hz & Hj & _).
  rewrite E in R. injection R as <-. cbn [bind] in A.
  assert (H2 : 1 <= 2 ^ kn) by (pose proof (Z.pow_pos_nonneg 2 kn); lia).
  destruct (c55_windows gw fuel (2 ^ kn) size (e_text (entries "wtype")) B Hf H2 Hz) as (ty & W & G & _).
  destruct (fbound (try_float (float_of (e_text (entries "smfb_0")))) (try_float (float_of (e_text (entries "smfb_1"))))) as [lo hi] eqn:F.
  rewrite (posts_run _ _ _ _ _ _ _ _ _ _ _ _ _ _ _ _ _ _ _ _ _ _ _ _ _ _ _ _ _ W F) in A. cbn [bind] in A.
  set (x := fun k => float_of (e_text (entries k))) in *.
  set (offs := try_float (x "sinusoidal__tracker__freq_dev_offset")) in *.
  set (slope := try_float (x "sinusoidal__tracker__freq_dev_slope")) in *.
  set (pk := try_float (x "sinusoidal__tracker__peak_threshold")) in *.
  set (t := try_float (x "sinusoidal__t")) in *.
  set (dur := float_clip (Some 0%Q) None (Some (1 # 10)%Q) (x "sinusoidal__tracker__min_sine_dur")) in *.
  set (th := float_clip (Some 0%Q) None (Some 4%Q) (x "beat_decisor__th")) in *.
  set (lpf := float_clip (Some 2%Q) (Some 50%Q) (Some 12%Q) (x "beatsdrop__lpf")) in *.
  set (st := strip_time_parse (x "sinusoidal__tracker__strip_t")) in *.
  set (size' := Z.min (2 ^ kn) size) in *.
  set (theme := if vt (e_text (entries "gui_theme")) then e_text (entries "gui_theme") else "") in *.
  match type of A with context [dget "gui_theme" ?D] => change (dget "gui_theme" D) with (Some (SStr theme)) in A end. cbv iota in A.
  assert (Es : settings = read_settings v_modes v_sines (2 ^ kn) v_h size' jobs ty theme' offs slope lo hi pk t dur th lpf
    (match st with Some v => SFloat v | None => SNone end) (e_bool (entries "sinusoidal__tracker__reverse")) (e_bool (entries "sinusoidal__padded"))
    (e_bool (entries "beatsdrop")) (e_bool (entries "parallel"))).
  { destruct (String.eqb theme ""); injection A as A _; subst settings; cbn in Th; injection Th as <-; reflexivity. }
  assert (Ep : params = made_params v_modes v_sines (2 ^ kn) v_h size' jobs ty offs slope lo hi pk t dur th lpf
    (match st with Some v => SFloat v | None => SNone end) (e_bool (entries "sinusoidal__tracker__reverse")) (e_bool (entries "sinusoidal__padded"))
    (e_bool (entries "beatsdrop")) (e_bool (entries "parallel"))).
  { destruct (String.eqb theme ""); injection A as _ A; subst params; reflexivity. }
  clear A. rewrite Es in S, Th.
  assert (Sm := S "max_n_modes" _ eq_refl). assert (Ss := S "sinusoidal__tracker__max_n_sines" _ eq_refl).
  assert (Sn := S "sinusoidal__n" _ eq_refl). assert (Sh := S "sinusoidal__tracker__h" _ eq_refl).
  assert (Sz := S "wsize" _ eq_refl). assert (Sty := S "wtype" _ eq_refl).
  assert (So := S "sinusoidal__tracker__freq_dev_offset" _ eq_refl). assert (Sl := S "sinusoidal__tracker__freq_dev_slope" _ eq_refl).
  assert (S0 := S "smfb_0" _ eq_refl). assert (S1 := S "smfb_1" _ eq_refl).
  assert (Spk := S "sinusoidal__tracker__peak_threshold" _ eq_refl). assert (St := S "sinusoidal__t" _ eq_refl).
  assert (Sd := S "sinusoidal__tracker__min_sine_dur" _ eq_refl). assert (Sst := S "sinusoidal__tracker__strip_t" _ eq_refl).
  assert (Sr := S "sinusoidal__tracker__reverse" _ eq_refl). assert (Spd := S "sinusoidal__padded" _ eq_refl).
  assert (Sb := S "beatsdrop" _ eq_refl). assert (Spa := S "parallel" _ eq_refl). assert (Sj := S "n_jobs" _ eq_refl).
  assert (Sth := S "beat_decisor__th" _ eq_refl). assert (Slp := S "beatsdrop__lpf" _ eq_refl). assert (Sg := S "gui_theme" _ eq_refl).
  cbn [shows] in *.
  assert (R' : read_all float_of [] entries' specs = Ok (read_settings v_modes v_sines (2 ^ kn) v_h size' jobs ty theme' offs slope lo hi pk t dur th lpf
    (match st with Some v => SFloat v | None => SNone end) (e_bool (entries "sinusoidal__tracker__reverse")) (e_bool (entries "sinusoidal__padded"))
    (e_bool (entries "beatsdrop")) (e_bool (entries "parallel")))).
  { unfold specs. cbn [read_all read dget].
    assert (Cm : custom_positive_int None (float_of (e_text (entries' "max_n_modes"))) = Ok (match v_modes with SInt z => Some z | _ => None end)).
    { destruct M as [->|(z & -> & Hm)]; cbn [shows] in Sm; rewrite Sm; [reflexivity|now apply pos_again]. }
    rewrite Cm, Ss, Sn, Sh, Sz, Sty, So, Sl, S0, S1, Spk, St, Sd, Sr, Spd, Sb, Spa, Sj, Sth, Slp, Sg.
    assert (Hz' : 1 <= size') by (unfold size'; lia).
    rewrite pow2_again by exact Hk. rewrite !pos_again by assumption. cbn [bind try_float].
    assert (Cs : strip_time_parse (float_of (e_text (entries' "sinusoidal__tracker__strip_t"))) = st).
    { destruct st as [v|] eqn:Est; cbn [shows] in Sst; rewrite Sst; [now apply (strip_again (x "sinusoidal__tracker__strip_t"))|reflexivity]. }
    rewrite Cs. unfold dur, th, lpf. rewrite !clip_again by (reflexivity || exact I). unfold read_settings.
    do 3 f_equal. destruct M as [->|(z & -> & _)]; reflexivity. }
  unfold apply_cbk. rewrite R'. cbn [bind].
  assert (W' : windows gw fuel (inject_Z (2 ^ kn)) (inject_Z size') ty = Some (ty, inject_Z size')).
  { assert (Hz' : 1 <= size') by (unfold size'; lia).
    destruct (c55_windows gw fuel (2 ^ kn) size' ty B Hf H2 Hz') as (ty2 & -> & _ & D).
    replace (Z.min (2 ^ kn) size') with size' in * by (unfold size'; lia). destruct D as [->|[D _]]; [reflexivity|congruence]. }
  rewrite (posts_run _ _ _ _ _ _ _ _ _ _ _ _ _ _ _ _ _ _ _ _ _ _ _ _ _ _ _ _ _ W' (fbound_again _ _ _ _ F)). cbn [bind].
  set (theme2 := if vt theme' then theme' else "").
  match goal with |- context [dget "gui_theme" ?D] => change (dget "gui_theme" D) with (Some (SStr theme2)) end. cbv iota.
  rewrite Es, Ep. f_equal. f_equal. unfold theme2. destruct (vt theme').
  - destruct (String.eqb_spec theme' ""); reflexivity.
  - reflexivity.
Qed.
Print Assumptions c55_again.

(** A concrete case: the texts at the first start of the program, with a window
    that is larger than the FFT. *)
Definition float_of_demo (s : string) : option pfloat :=
  if String.eqb s "4096" then Some (pz 4096) else if String.eqb s "1000" then Some (pz 1000)
  else if String.eqb s "1024" then Some (pz 1024) else if String.eqb s "20" then Some (pz 20)
  else if String.eqb s "64" then Some (pz 64) else if String.eqb s "nan" then Some PNan else None.
Definition demo (k : string) : entry :=
  mkEntry (if String.eqb k "sinusoidal__n" then "1000" else if String.eqb k "wsize" then "4096"
           else if String.eqb k "smfb_0" then "1000" else if String.eqb k "smfb_1" then "20"
           else if String.eqb k "wtype" then "hann" else "None") false.
Example c55_apply_example :
  let gw := fun (t : string) (q : Q) => Qle_bool 0 q in
  blackman_ok gw /\
  match apply_cbk float_of_demo gw 2 (fun _ => true) "arc" [] demo with
  | Ok (settings, params) =>
    dget "sinusoidal__w" params = Some (SWin "hann" 1024) /\ dget "n_jobs" params = Some (SInt 0) /\
    dget "sinusoidal__tracker__frequency_bounds" params = Some (SPair (pz 20) (pz 1000)) /\
    dget "wsize" settings = Some (SInt 1024)
  | Err _ => False
  end /\
  apply_cbk float_of_demo gw 2 (fun _ => true) "arc" [] (fun k => mkEntry "nan" false) = Err ValueError.
Proof.
  cbv zeta. split; [|vm_compute; auto]. intros z Hz. apply Qle_bool_iff. change 0%Q with (inject_Z 0). now rewrite <- Zle_Qle.
Qed.

(** At the start of the program the saved settings count, not the entries: as
    long as the entries can be read at all, the settings and parameters are
    those with which the settings were saved. *)
Lemma read_all_known : forall float_of file entries sp,
  (forall k kd, In (k, kd) sp -> exists v, read float_of kd (entries k) = Ok v) ->
  (forall k kd, In (k, kd) sp -> exists v, dget k file = Some v) ->
  read_all float_of file entries sp = Ok (map (fun p => (fst p, match dget (fst p) file with Some v => v | None => SNone end)) sp).
Proof.
  intros float_of file entries sp. induction sp as [|[k kd] sp IH]; intros H F; [reflexivity|].
  destruct (H k kd (or_introl eq_refl)) as [v E]. destruct (F k kd (or_introl eq_refl)) as [u U].
  cbn [read_all map fst]. rewrite E. cbn [bind]. rewrite IH; [|intros; apply (H _ kd0); now right|intros; apply (F _ kd0); now right].
  cbn [bind]. now rewrite U.
Qed.
Theorem c55_file : forall float_of get_window fuel vt prev entries settings params entries' theme,
  blackman_ok get_window -> (2 <= fuel)%nat ->
  apply_cbk float_of get_window fuel vt prev [] entries = Ok (settings, params) ->
  (forall k, float_of (e_text (entries' k)) <> Some PNan /\ float_of (e_text (entries' k)) <> Some (PInf true)) ->
  dget "gui_theme" settings = Some (SStr theme) ->
  apply_cbk float_of get_window fuel vt theme settings entries' = Ok (settings, params).
Proof.
  intros float_of gw fuel vt prev entries settings params entries' theme' B Hf A S Th. unfold apply_cbk in A.
  destruct (read_all float_of [] entries specs) as [d|e] eqn:R; [|discriminate].
  assert (H : forall k kd, In (k, kd) specs -> exists v, read float_of kd (entries k) = Ok v).
  { clear -R. revert d R. generalize specs. induction l as [|[k0 kd0] l IH]; intros d R k kd I; [destruct I|]. cbn [read_all] in R.
    destruct (read float_of kd0 (entries k0)) as [v|e] eqn:E; [|discriminate]. cbn [bind] in R.
    destruct (read_all float_of [] entries l) as [d'|e] eqn:E'; [|discriminate]. destruct I as [[= <- <-]|I]; [eauto|]. eapply IH; eauto. }
  destruct (read_specs float_of entries H) as (v_modes & v_sines & kn & v_h & size & jobs & E & M & Hs & Hk & Hh & Hz & Hj & _).
  rewrite E in R. injection R as <-. cbn [bind] in A.
  assert (H2 : 1 <= 2 ^ kn) by (pose proof (Z.pow_pos_nonneg 2 kn); lia).
  destruct (c55_windows gw fuel (2 ^ kn) size (e_text (entries "wtype")) B Hf H2 Hz) as (ty & W & G & _).
  destruct (fbound (try_float (float_of (e_text (entries "smfb_0")))) (try_float (float_of (e_text (entries "smfb_1"))))) as [lo hi] eqn:F.
  rewrite (posts_run _ _ _ _ _ _ _ _ _ _ _ _ _ _ _ _ _ _ _ _ _ _ _ _ _ _ _ _ _ W F) in A. cbn [bind] in A.
  set (x := fun k => float_of (e_text (entries k))) in *.
  set (offs := try_float (x "sinusoidal__tracker__freq_dev_offset")) in *.
  set (slope := try_float (x "sinusoidal__tracker__freq_dev_slope")) in *.
  set (pk := try_float (x "sinusoidal__tracker__peak_threshold")) in *.
  set (t := try_float (x "sinusoidal__t")) in *.
  set (dur := float_clip (Some 0%Q) None (Some (1 # 10)%Q) (x "sinusoidal__tracker__min_sine_dur")) in *.
  set (th := float_clip (Some 0%Q) None (Some 4%Q) (x "beat_decisor__th")) in *.
  set (lpf := float_clip (Some 2%Q) (Some 50%Q) (Some 12%Q) (x "beatsdrop__lpf")) in *.
  set (st := match strip_time_parse (x "sinusoidal__tracker__strip_t") with Some v => SFloat v | None => SNone end) in *.
  set (size' := Z.min (2 ^ kn) size) in *.
  set (theme := if vt (e_text (entries "gui_theme")) then e_text (entries "gui_theme") else "") in *.
  match type of A with context [dget "gui_theme" ?D] => change (dget "gui_theme" D) with (Some (SStr theme)) in A end. cbv iota in A.
  assert (Es : settings = read_settings v_modes v_sines (2 ^ kn) v_h size' jobs ty theme' offs slope lo hi pk t dur th lpf
    st (e_bool (entries "sinusoidal__tracker__reverse")) (e_bool (entries "sinusoidal__padded"))
    (e_bool (entries "beatsdrop")) (e_bool (entries "parallel"))).
  { destruct (String.eqb theme ""); injection A as A _; subst settings; cbn in Th; injection Th as <-; reflexivity. }
  assert (Ep : params = made_params v_modes v_sines (2 ^ kn) v_h size' jobs ty offs slope lo hi pk t dur th lpf
    st (e_bool (entries "sinusoidal__tracker__reverse")) (e_bool (entries "sinusoidal__padded"))
    (e_bool (entries "beatsdrop")) (e_bool (entries "parallel"))).
  { destruct (String.eqb theme ""); injection A as _ A; subst params; reflexivity. }
  clear A.
  assert (R' : read_all float_of settings entries' specs = Ok settings).
  { rewrite read_all_known.
    - rewrite Es. reflexivity.
    - intros k kd I. destruct (read float_of kd (entries' k)) as [v|e] eqn:Er; [eauto|].
      destruct (read_err _ _ _ _ Er) as (_ & [[Y _]|[Y _]]); destruct (S k); congruence.
    - intros k kd I. rewrite Es. repeat (destruct I as [[= <- <-]|I]; [eexists; reflexivity|]). destruct I. }
  unfold apply_cbk. rewrite R'. cbn [bind]. rewrite Es.
  assert (W' : windows gw fuel (inject_Z (2 ^ kn)) (inject_Z size') ty = Some (ty, inject_Z size')).
  { assert (Hz' : 1 <= size') by (unfold size'; lia).
    destruct (c55_windows gw fuel (2 ^ kn) size' ty B Hf H2 Hz') as (ty2 & -> & _ & D).
    replace (Z.min (2 ^ kn) size') with size' in * by (unfold size'; lia). destruct D as [->|[D _]]; [reflexivity|congruence]. }
  rewrite (posts_run _ _ _ _ _ _ _ _ _ _ _ _ _ _ _ _ _ _ _ _ _ _ _ _ _ _ _ _ _ W' (fbound_again _ _ _ _ F)). cbn [bind].
  set (theme2 := if vt theme' then theme' else "").
  match goal with |- context [dget "gui_theme" ?D] => change (dget "gui_theme" D) with (Some (SStr theme2)) end. cbv iota.
  rewrite Ep. f_equal. f_equal. unfold theme2. destruct (vt theme').
  - destruct (String.eqb_spec theme' ""); reflexivity.
  - reflexivity.
Qed.
Print Assumptions c55_file.
Example c55_file_example :
  let gw := fun (t : string) (q : Q) => Qle_bool 0 q in
  match apply_cbk float_of_demo gw 2 (fun _ => true) "arc" [] demo with
  | Ok (settings, params) =>
    apply_cbk float_of_demo gw 2 (fun _ => true) "None" settings (fun _ => mkEntry "64" true) = Ok (settings, params)
  | Err _ => False
  end /\
  match apply_cbk float_of_demo gw 2 (fun _ => true) "arc" [("max_n_modes", SInt 7)] demo with
  | Ok (settings, params) => dget "max_n_modes" params = Some (SInt 7) /\ dget "sinusoidal__n" params = Some (SInt 1024)
  | Err _ => False
  end.
Proof. vm_compute. auto. Qed.
