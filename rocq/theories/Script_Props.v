(** C98: the example script of BeatsDROP (scripts/beatsdrop/example.py) reads, crops and
    writes audio. *)
From Coq Require Import String Ascii List Bool ZArith Reals Lia Lra.
Import ListNotations.
From Verif Require Import Base Py RLists ListLemmas PyLemmas Eval_Model Script_Model.
Local Open Scope R_scope.

(** ** Names of files *)

(** A path that is empty or ends with a slash. *)
Definition folder (d : name) : Prop := d = [] \/ exists p, d = p ++ ["/"%char].
(** A path, the path without extension, and the extension: the last part of the file
    name that starts with a dot, if anything but dots and slashes comes before. *)
Inductive named : name -> name -> name -> Prop :=
| named_ext dir stem ext : folder dir -> ~ In "/"%char stem -> (exists c, In c stem /\ c <> "."%char) ->
    ~ In "/"%char ext -> ~ In "."%char ext -> named (dir ++ stem ++ "."%char :: ext) (dir ++ stem) ("."%char :: ext)
| named_no dir dots stem : folder dir -> (forall c, In c dots -> c = "."%char) -> ~ In "/"%char stem -> ~ In "."%char stem ->
    named (dir ++ dots ++ stem) (dir ++ dots ++ stem) [].

Lemma rfind_snoc c p a : rfind c (p ++ [a]) = if Ascii.eqb a c then Z.of_nat (List.length p) else rfind c p.
Proof.
  unfold rfind. rewrite app_length. cbn [List.length]. rewrite Nat.add_1_r, seq_S, fold_left_app. cbn [fold_left Nat.add].
  rewrite app_nth2, Nat.sub_diag by lia. cbn [nth]. destruct (Ascii.eqb a c); [reflexivity|].
  assert (H : forall l r, (forall i, In i l -> (i < List.length p)%nat) ->
    fold_left (fun r i => if Ascii.eqb (nth i (p ++ [a]) "0"%char) c then Z.of_nat i else r) l r =
    fold_left (fun r i => if Ascii.eqb (nth i p "0"%char) c then Z.of_nat i else r) l r).
  { induction l as [|i l IH]; intros r Hl; cbn [fold_left]; [reflexivity|].
    rewrite app_nth1 by (apply Hl; left; reflexivity). apply IH. intros j Hj. apply Hl. right. exact Hj. }
  apply H. intros i Hi. apply in_seq in Hi. lia.
Qed.
Lemma rfind_none c p : ~ In c p -> rfind c p = (-1)%Z.
Proof.
  induction p as [|a p IH] using rev_ind; intros H; [reflexivity|]. rewrite rfind_snoc.
  destruct (Ascii.eqb_spec a c) as [->|]; [exfalso; apply H; apply in_or_app; right; left; reflexivity|].
  apply IH. intros Hp. apply H. apply in_or_app. left. exact Hp.
Qed.
Lemma rfind_app c p q : ~ In c q -> rfind c (p ++ q) = rfind c p.
Proof.
  induction q as [|a q IH] using rev_ind; intros H; [rewrite app_nil_r; reflexivity|].
  rewrite app_assoc, rfind_snoc. destruct (Ascii.eqb_spec a c) as [->|]; [exfalso; apply H; apply in_or_app; right; left; reflexivity|].
  apply IH. intros Hp. apply H. apply in_or_app. left. exact Hp.
Qed.
Lemma rfind_last c p q : ~ In c q -> rfind c (p ++ c :: q) = Z.of_nat (List.length p).
Proof.
  intros H. change (c :: q) with ([c] ++ q). rewrite app_assoc, rfind_app by exact H. rewrite rfind_snoc, Ascii.eqb_refl. reflexivity.
Qed.
Lemma rfind_lt c p : (rfind c p < Z.of_nat (List.length p))%Z.
Proof.
  induction p as [|a p IH] using rev_ind; [cbn; lia|]. rewrite rfind_snoc, app_length. cbn [List.length].
  destruct (Ascii.eqb a c); lia.
Qed.
Lemma rfind_folder d q : folder d -> ~ In "/"%char q -> rfind "/" (d ++ q) = (Z.of_nat (List.length d) - 1)%Z.
Proof.
  intros [->|(p & ->)] H.
  - cbn [app List.length]. rewrite rfind_none by exact H. reflexivity.
  - rewrite rfind_app by exact H. rewrite rfind_snoc. rewrite app_length. cbn. lia.
Qed.

Lemma slice_mid {A} (a b c : list A) : slice (Some (Z.of_nat (List.length a))) (Some (Z.of_nat (List.length a + List.length b))) (a ++ b ++ c) = b.
Proof.
  unfold slice, lo_bound, hi_bound, slice_bound, zlen. rewrite !app_length.
  destruct (Z.ltb_spec (Z.of_nat (List.length a)) 0); [lia|].
  destruct (Z.ltb_spec (Z.of_nat (List.length a + List.length b)) 0); [lia|].
  replace (Z.to_nat (Z.min (Z.of_nat (List.length a)) (Z.of_nat (List.length a + (List.length b + List.length c))))) with (List.length a) by lia.
  replace (Z.to_nat (Z.min (Z.of_nat (List.length a + List.length b)) (Z.of_nat (List.length a + (List.length b + List.length c)))) - List.length a)%nat
    with (List.length b) by lia.
  rewrite skipn_app, skipn_all, Nat.sub_diag. cbn [skipn app]. rewrite firstn_app, firstn_all, Nat.sub_diag. cbn [firstn]. apply app_nil_r.
Qed.

(** [os.path.splitext] finds the extension. *)
Theorem c98_splitext p r e : named p r e -> splitext p = (r, e).
Proof.
  intros H. destruct H as [dir stem ext Hd Hs (c & Hc & Nc) He1 He2|dir dots stem Hd Hdots Hs1 Hs2]; unfold splitext.
  - rewrite rfind_folder; [|exact Hd|intros H; apply in_app_or in H as [H|[H|H]]; [exact (Hs H)|discriminate|exact (He1 H)]].
    rewrite app_assoc, rfind_last by exact He2. rewrite <- app_assoc.
    replace (Z.of_nat (List.length dir) - 1 <? Z.of_nat (List.length (dir ++ stem)))%Z with true
      by (symmetry; apply Z.ltb_lt; rewrite app_length; lia).
    rewrite app_length. replace (Z.of_nat (List.length dir) - 1 + 1)%Z with (Z.of_nat (List.length dir)) by lia.
    rewrite slice_mid. cbn [andb].
    replace (existsb (fun c => negb (Ascii.eqb c ".")) stem) with true.
    2:{ symmetry. apply existsb_exists. exists c. split; [exact Hc|]. destruct (Ascii.eqb_spec c "."); [contradiction|reflexivity]. }
    rewrite Nat2Z.id, app_assoc, <- app_length. rewrite firstn_app, firstn_all, Nat.sub_diag, skipn_app, skipn_all, Nat.sub_diag.
    cbn [firstn skipn app]. rewrite app_nil_r. reflexivity.
  - assert (Hds : ~ In "/"%char (dots ++ stem)).
    { intros H. apply in_app_or in H as [H|H]; [specialize (Hdots _ H); discriminate|exact (Hs1 H)]. }
    rewrite rfind_folder by assumption.
    rewrite app_assoc, rfind_app by exact Hs2. rewrite <- app_assoc.
    destruct dots as [|c0 dots0] eqn:Edots.
    + rewrite app_nil_r. replace (Z.of_nat (List.length dir) - 1 <? rfind "." dir)%Z with false; [reflexivity|].
      symmetry. apply Z.ltb_ge. pose proof (rfind_lt "." dir). lia.
    + destruct (exists_last (l := c0 :: dots0)) as (ds & c & E); [discriminate|]. rewrite E in *. clear E c0 dots0 Edots.
      assert (Ec : c = "."%char) by (apply Hdots; apply in_or_app; right; left; reflexivity). subst c.
      rewrite app_assoc, rfind_snoc, Ascii.eqb_refl.
      replace (slice _ _ _) with ds.
      2:{ symmetry. rewrite app_length. replace (Z.of_nat (List.length dir) - 1 + 1)%Z with (Z.of_nat (List.length dir)) by lia.
          rewrite <- !app_assoc. apply slice_mid. }
      replace (existsb (fun c => negb (Ascii.eqb c ".")) ds) with false; [rewrite andb_false_r; reflexivity|].
      symmetry. apply not_true_is_false. intros H. apply existsb_exists in H as (c & Hc & Hn).
      rewrite (Hdots c) in Hn by (apply in_or_app; left; exact Hc). discriminate.
Qed.
Print Assumptions c98_splitext.

Lemma last_split c (p : name) : In c p -> exists a b, p = a ++ c :: b /\ ~ In c b.
Proof.
  induction p as [|x p IH] using rev_ind; intros H; [destruct H|].
  destruct (ascii_dec x c) as [->|N]; [exists p, []; split; [reflexivity|intros []]|].
  apply in_app_or in H as [H|[H|[]]]; [|congruence]. destruct (IH H) as (a & b & -> & Hb).
  exists a, (b ++ [x]). split; [rewrite <- app_assoc; reflexivity|]. intros Hi. apply in_app_or in Hi as [Hi|[Hi|[]]]; [exact (Hb Hi)|congruence].
Qed.
(** Every path is of one of the two kinds. *)
Theorem c98_named p : exists r e, named p r e /\ p = r ++ e.
Proof.
  assert (Hdir : exists dir base, p = dir ++ base /\ folder dir /\ ~ In "/"%char base).
  { destruct (in_dec ascii_dec "/"%char p) as [H|H].
    - destruct (last_split _ _ H) as (a & b & -> & Hb). exists (a ++ ["/"%char]), b.
      split; [rewrite <- app_assoc; reflexivity|]. split; [right; exists a; reflexivity|exact Hb].
    - exists [], p. split; [reflexivity|]. split; [left; reflexivity|exact H]. }
  destruct Hdir as (dir & base & -> & Hd & Hb).
  assert (Hdots : exists dots g, base = dots ++ g /\ (forall c, In c dots -> c = "."%char) /\ (g = [] \/ exists c g', g = c :: g' /\ c <> "."%char)).
  { clear. induction base as [|c base IH].
    - exists [], []. split; [reflexivity|]. split; [intros c []|left; reflexivity].
    - destruct (ascii_dec c ".") as [->|N].
      + destruct IH as (dots & g & -> & A & B). exists ("."%char :: dots), g. split; [reflexivity|]. split; [|exact B].
        intros c [<-|H]; [reflexivity|exact (A c H)].
      + exists [], (c :: base). split; [reflexivity|]. split; [intros c0 []|]. right. exists c, base. split; [reflexivity|exact N]. }
  destruct Hdots as (dots & g & -> & A & B).
  destruct (in_dec ascii_dec "."%char g) as [H|H].
  - destruct (last_split _ _ H) as (a & ext & -> & Hext). exists (dir ++ dots ++ a), ("."%char :: ext).
    split; [|rewrite <- !app_assoc; reflexivity].
    replace (dir ++ dots ++ a ++ "."%char :: ext) with (dir ++ (dots ++ a) ++ "."%char :: ext) by (rewrite <- !app_assoc; reflexivity).
    apply named_ext; [exact Hd| | | |exact Hext].
    + intros Hi. apply Hb. rewrite app_assoc. apply in_or_app. left. exact Hi.
    + destruct B as [B|(c & g' & B & Nc)]; [destruct a; discriminate|].
      destruct a as [|c' a]; [cbn in B; injection B as <- _; congruence|]. cbn in B. injection B as -> _.
      exists c. split; [apply in_or_app; right; left; reflexivity|exact Nc].
    + intros Hi. apply Hb. apply in_or_app. right. apply in_or_app. right. right. exact Hi.
  - exists (dir ++ dots ++ g), []. split; [|rewrite app_nil_r; reflexivity]. apply named_no; [exact Hd|exact A| |exact H].
    intros Hi. apply Hb. apply in_or_app. right. exact Hi.
Qed.
Print Assumptions c98_named.

(** Written files are named like the input with the suffix before the extension. *)
Theorem c98_out_name s p r e : ~ In "."%char s -> ~ In "/"%char s -> named p r e ->
  out_name s p = r ++ s ++ e /\ named (out_name s p) (r ++ s) e.
Proof.
  intros Hs1 Hs2 H. unfold out_name. rewrite (c98_splitext _ _ _ H). split; [reflexivity|].
  destruct H as [dir stem ext Hd Hs (c & Hc & Nc) He1 He2|dir dots stem Hd Hdots Hst1 Hst2].
  - rewrite <- !app_assoc. replace (dir ++ stem ++ s ++ "."%char :: ext) with (dir ++ (stem ++ s) ++ "."%char :: ext) by (rewrite <- !app_assoc; reflexivity).
    apply named_ext; [exact Hd| | |exact He1|exact He2].
    + intros H. apply in_app_or in H as [H|H]; contradiction.
    + exists c. split; [apply in_or_app; left; exact Hc|exact Nc].
  - rewrite app_nil_r, <- !app_assoc. apply (named_no dir dots (stem ++ s)); [exact Hd|exact Hdots| |]; intros H; apply in_app_or in H as [H|H]; contradiction.
Qed.
Print Assumptions c98_out_name.

(** Inputs are never overwritten, and outputs of different inputs are different. *)
Theorem c98_out_name_new s p q : ~ In "."%char s -> ~ In "/"%char s -> s <> [] ->
  out_name s p <> p /\ (out_name s p = out_name s q -> p = q).
Proof.
  intros Hs1 Hs2 Hne. destruct (c98_named p) as (r & e & H & Ep). destruct (c98_named q) as (r' & e' & H' & Eq).
  destruct (c98_out_name s p r e Hs1 Hs2 H) as [O N]. destruct (c98_out_name s q r' e' Hs1 Hs2 H') as [O' N'].
  split.
  - intros E. rewrite O in E. rewrite Ep in E. apply (f_equal (@List.length ascii)) in E. rewrite !app_length in E.
    destruct s; [congruence|cbn in E; lia].
  - intros E. apply c98_splitext in N, N'. rewrite E in N. rewrite N in N'. injection N' as E1 E2.
    apply app_inv_tail in E1. congruence.
Qed.
Print Assumptions c98_out_name_new.

(** ** Loading *)

Lemma load_int bits v : (1 <= bits)%Z -> load_sample (WInt bits) v = Some (v / IZR (2 ^ (bits - 1))).
Proof.
  intros Hb. unfold load_sample. cbn [iinfo_min]. rewrite Z.opp_involutive.
  assert (HP : (0 < 2 ^ (bits - 1))%Z) by (apply Z.pow_pos_nonneg; lia).
  destruct (Z.eqb_spec (2 ^ (bits - 1)) 0); [lia|reflexivity].
Qed.

(** Samples of signed integers of [bits] bits become numbers from -1 to 1 (excluded)
    in proportion. *)
Theorem c98_load bits x : (1 <= bits)%Z -> (forall v, In v x -> exists k, v = IZR k /\ (- 2 ^ (bits - 1) <= k < 2 ^ (bits - 1))%Z) ->
  exists y, load_audio (WInt bits) (Mono x) = map Some y /\ List.length y = List.length x /\
    forall i, (i < List.length x)%nat -> nth i x 0 = nth i y 0 * 2 ^ Z.to_nat (bits - 1) /\ -1 <= nth i y 0 < 1.
Proof.
  intros Hb Hx. exists (map (fun v => v / IZR (2 ^ (bits - 1))) x). cbn [load_audio]. rewrite map_map, map_length.
  split; [apply map_ext; intros v; apply load_int; exact Hb|]. split; [reflexivity|]. intros i Hi. rewrite (nth_map_lt _ _ _ 0) by exact Hi.
  assert (HP : (0 < 2 ^ (bits - 1))%Z) by (apply Z.pow_pos_nonneg; lia).
  destruct (Hx (nth i x 0) (nth_In _ _ Hi)) as (k & -> & Hk1 & Hk2).
  assert (E : 2 ^ Z.to_nat (bits - 1) = IZR (2 ^ (bits - 1))).
  { rewrite pow_IZR, Z2Nat.id by lia. reflexivity. }
  rewrite E. set (P := (2 ^ (bits - 1))%Z) in *. clearbody P. apply IZR_lt in HP. apply IZR_le in Hk1. rewrite opp_IZR in Hk1. apply IZR_lt in Hk2.
  split; [field; lra|]. split.
  - apply (Rmult_le_reg_r (IZR P)); [exact HP|]. unfold Rdiv. rewrite Rmult_assoc, Rinv_l; lra.
  - apply (Rmult_lt_reg_r (IZR P)); [exact HP|]. unfold Rdiv. rewrite Rmult_assoc, Rinv_l; lra.
Qed.
Print Assumptions c98_load.

(** Several channels become the mean of the channels. *)
Theorem c98_mono t x : (match t with WInt bits => (1 <= bits)%Z | WUint8 => False | WFloat => True end) ->
  exists y, load_audio t (Multi x) = map Some y /\ List.length y = List.length x /\
  forall i, (i < List.length x)%nat -> nth i x [] <> [] ->
    exists f, map Some f = load_audio t (Mono (nth i x [])) /\ nth i y 0 * INR (List.length f) = rsum f.
Proof.
  intros Ht.
  assert (Hl : forall f, exists g, map Some g = map (load_sample t) f /\ List.length g = List.length f).
  { induction f as [|v f (g & E & L)]; [exists []; split; reflexivity|].
    destruct t as [bits| |]; [|destruct Ht|]; eexists (_ :: g); cbn [map List.length]; rewrite E, L; (split; [|reflexivity]);
      [rewrite (load_int bits v Ht)|]; reflexivity. }
  assert (Hm : forall g, mono (map Some g) = Some (rsum g / INR (List.length g))).
  { intros g. unfold mono. replace (forallb _ _) with true.
    - rewrite map_length, map_map, map_id. reflexivity.
    - symmetry. apply forallb_forall. intros o Ho. apply in_map_iff in Ho as (v & <- & _). reflexivity. }
  cbn [load_audio]. induction x as [|f x (y & E & L & IH)].
  - exists []. split; [reflexivity|]. split; [reflexivity|]. intros i Hi. cbn in Hi. lia.
  - destruct (Hl f) as (g & Eg & Lg). exists ((rsum g / INR (List.length g)) :: y). cbn [map List.length]. rewrite E, <- Eg, Hm, L.
    split; [reflexivity|]. split; [reflexivity|]. intros [|i] Hi Hf.
    + cbn [nth] in *. exists g. destruct f as [|v f]; [contradiction|]. cbn [load_audio]. split; [exact Eg|].
      field. apply not_0_INR. rewrite Lg. discriminate.
    + cbn [nth] in *. apply IH; [lia|exact Hf].
Qed.
Print Assumptions c98_mono.

(** Unsigned samples (8-bit WAV files): nothing is left, whatever the sound is. *)
Theorem c98_uint8_refuted : forall x, load_audio WUint8 (Mono x) = map (fun _ => None) x.
Proof. intros x. cbn [load_audio]. apply map_ext. reflexivity. Qed.
Print Assumptions c98_uint8_refuted.

(** ** Cropping *)

(** Strictly increasing positions of a signal of [n] samples. *)
Definition positions (o : list Z) (n : Z) : Prop :=
  (forall i j, (i < j)%nat -> (j < List.length o)%nat -> (nth i o 0 < nth j o 0)%Z) /\ forall a, In a o -> (0 <= a < n)%Z.

Lemma positions_snoc o n : positions o n ->
  forall i j, (i < j)%nat -> (j < List.length (o ++ [n]))%nat -> (nth i (o ++ [n]) 0 < nth j (o ++ [n]) 0)%Z.
Proof.
  intros [Hs Hb] i j Hij Hj. rewrite app_length in Hj. cbn in Hj.
  rewrite (app_nth1 _ _ _ (n := i)) by lia. destruct (Nat.eq_dec j (List.length o)) as [->|N].
  - rewrite app_nth2, Nat.sub_diag by lia. cbn [nth]. apply Hb. apply nth_In. lia.
  - rewrite app_nth1 by lia. apply Hs; lia.
Qed.
Lemma zmin_spec l d : l <> [] -> In (zmin l d) l /\ forall a, In a l -> (zmin l d <= a)%Z.
Proof.
  intros Hne. destruct l as [|a l]; [congruence|]. cbn [zmin]. clear Hne. revert a.
  induction l as [|b l IH]; intros a; cbn [fold_left].
  - split; [left; reflexivity|intros c [<-|[]]; lia].
  - destruct (IH (Z.min a b)) as [A B]. pose proof (B _ (or_introl eq_refl)). split.
    + destruct A as [A|A]; [|right; right; exact A]. rewrite <- A.
      destruct (Z.min_spec a b) as [[_ ->]|[_ ->]]; [left|right; left]; reflexivity.
    + intros c [<-|[<-|Hc]]; [lia|lia|apply B; right; exact Hc].
Qed.
Lemma zmax_spec l d : l <> [] -> In (zmax l d) l /\ forall a, In a l -> (a <= zmax l d)%Z.
Proof.
  intros Hne. destruct l as [|a l]; [congruence|]. cbn [zmax]. clear Hne. revert a.
  induction l as [|b l IH]; intros a; cbn [fold_left].
  - split; [left; reflexivity|intros c [<-|[]]; lia].
  - destruct (IH (Z.max a b)) as [A B]. pose proof (B _ (or_introl eq_refl)). split.
    + destruct A as [A|A]; [|right; right; exact A]. rewrite <- A.
      destruct (Z.max_spec a b) as [[_ ->]|[_ ->]]; [right; left|left]; reflexivity.
    + intros c [<-|[<-|Hc]]; [lia|lia|apply B; right; exact Hc].
Qed.

(** [b] is the first of the onsets after [a], or the end. *)
Definition next_onset (o : list Z) (n a b : Z) : Prop :=
  (In b o \/ b = n) /\ (a < b)%Z /\ forall c, In c o \/ c = n -> (a < c)%Z -> (b <= c)%Z.

Lemma until_spec o n a : (a < n)%Z -> next_onset o n a (zmin (filter (fun i => (a <? i)%Z) (o ++ [n])) n).
Proof.
  intros Ha. set (f := filter _ _).
  assert (Hf : forall c, In c f <-> (In c o \/ c = n) /\ (a < c)%Z).
  { intros c. unfold f. rewrite filter_In, in_app_iff, Z.ltb_lt. cbn. intuition. }
  assert (Hne : f <> []) by (intros E; assert (In n f) by (apply Hf; split; [right; reflexivity|exact Ha]); rewrite E in H; destruct H).
  destruct (zmin_spec f n Hne) as [A B]. apply Hf in A as [A1 A2]. split; [exact A1|]. split; [exact A2|].
  intros c Hc Hac. apply B. apply Hf. split; assumption.
Qed.

(** Both ends given: they are used. *)
Theorem c98_crop_given s e fs onsets n : crop_bounds (Some s) (Some e) fs onsets n = Ok (Rtrunc (s * fs), Rtrunc (e * fs)).
Proof. reflexivity. Qed.
Print Assumptions c98_crop_given.

(** The start given: until the next onset or the end. *)
Theorem c98_crop_start s fs o n : (Rtrunc (s * fs) < n)%Z ->
  exists b, crop_bounds (Some s) None fs (Ok o) n = Ok (Rtrunc (s * fs), b) /\ next_onset o n (Rtrunc (s * fs)) b.
Proof. intros Ha. eexists. split; [reflexivity|]. apply until_spec. exact Ha. Qed.
Print Assumptions c98_crop_start.

(** The end given: from the last onset before, or from the beginning. *)
Theorem c98_crop_end e fs o n : (Rtrunc (e * fs) <= n)%Z ->
  exists a, crop_bounds None (Some e) fs (Ok o) n = Ok (a, Rtrunc (e * fs)) /\
    ((In a o /\ (a < Rtrunc (e * fs))%Z /\ forall c, In c o -> (c < Rtrunc (e * fs))%Z -> (c <= a)%Z) \/
     (a = 0%Z /\ forall c, In c o -> (Rtrunc (e * fs) <= c)%Z)).
Proof.
  intros Hb. unfold crop_bounds. cbn [option_map bind]. set (b := Rtrunc (e * fs)) in *. set (f := filter _ _).
  assert (Hf : forall c, In c f <-> In c o /\ (c < b)%Z).
  { intros c. unfold f. rewrite filter_In, in_app_iff, Z.ltb_lt. cbn. intuition lia. }
  eexists. split; [reflexivity|]. destruct f as [|x f'] eqn:E.
  - right. split; [reflexivity|]. intros c Hc. destruct (Z.lt_ge_cases c b) as [H|H]; [|exact H].
    assert (Hin : In c []) by (apply Hf; split; assumption). destruct Hin.
  - left. destruct (zmax_spec (x :: f') 0%Z) as [A B]; [discriminate|]. apply Hf in A as [A1 A2].
    split; [exact A1|]. split; [exact A2|]. intros c Hc Hcb. apply B. apply Hf. split; assumption.
Qed.
Print Assumptions c98_crop_end.

(** An end after the end of the file: nothing is left. *)
Theorem c98_crop_end_refuted : exists e fs o (x : list nat), positions o (zlen x) /\ x <> [] /\
  forall input, exists p, crop_audio false None (Some e) fs (Ok o) input None x = Ok ([], Some (p, [])).
Proof.
  exists 5, 1, [0%Z; 1%Z], [7; 8; 9]%nat. split; [|split; [discriminate|]].
  - split.
    + intros [|[|i]] [|[|j]] Hij Hj; cbn in *; lia.
    + intros a [<-|[<-|[]]]; cbn; lia.
  - intros input. eexists. unfold crop_audio, crop_bounds. cbn [option_map bind].
    assert (E : Rtrunc (5 * 1) = 5%Z).
    { unfold Rtrunc. destruct (Rle_lt_dec 0 (5 * 1)); [|lra]. unfold Int_part.
      assert (H : up (5 * 1) = 6%Z) by (symmetry; apply tech_up; lra). rewrite H. reflexivity. }
    rewrite E. reflexivity.
Qed.
Print Assumptions c98_crop_end_refuted.

Lemma zdiff_length l : List.length (zdiff l) = (List.length l - 1)%nat.
Proof. induction l as [|a [|b l] IH]; [reflexivity|reflexivity|]. cbn [zdiff List.length] in *. rewrite IH. lia. Qed.
Lemma zdiff_nth l i : (Datatypes.S i < List.length l)%nat -> nth i (zdiff l) 0%Z = (nth (Datatypes.S i) l 0 - nth i l 0)%Z.
Proof.
  revert i. induction l as [|a [|b l] IH]; intros i Hi; [cbn in Hi; lia|cbn in Hi; lia|].
  destruct i as [|i]; [reflexivity|]. change (zdiff (a :: b :: l)) with ((b - a)%Z :: zdiff (b :: l)).
  cbn [nth]. rewrite IH by (cbn in *; lia). reflexivity.
Qed.
Lemma argmax_spec l : l <> [] -> (argmax l < List.length l)%nat /\
  (forall i, (i < List.length l)%nat -> (nth i l 0 <= nth (argmax l) l 0)%Z) /\
  (forall i, (i < argmax l)%nat -> (nth i l 0 < nth (argmax l) l 0)%Z).
Proof.
  intros Hne. unfold argmax.
  assert (H : forall k, (k < List.length l)%nat ->
    let m := fold_left (fun m i => if (nth m l 0 <? nth i l 0)%Z then i else m) (seq 1 k) 0%nat in
    (m <= k)%nat /\ (forall i, (i <= k)%nat -> (nth i l 0 <= nth m l 0)%Z) /\ forall i, (i < m)%nat -> (nth i l 0 < nth m l 0)%Z).
  { induction k as [|k IH]; intros Hk; [cbn; split; [lia|]; split; [intros i Hi; replace i with 0%nat by lia; lia|intros; lia]|].
    rewrite seq_S, fold_left_app. cbn [fold_left Nat.add]. cbv zeta. cbv zeta in IH. specialize (IH ltac:(lia)).
    set (m := fold_left _ (seq 1 k) 0%nat) in *. destruct IH as (A & B & C). clearbody m.
    destruct (Z.ltb_spec (nth m l 0%Z) (nth (Datatypes.S k) l 0%Z)) as [Hlt|Hge].
    - split; [lia|]. split.
      + intros i Hi. destruct (Nat.eq_dec i (Datatypes.S k)) as [->|]; [lia|]. specialize (B i ltac:(lia)). lia.
      + intros i Hi. specialize (B i ltac:(lia)). lia.
    - split; [lia|]. split; [|exact C]. intros i Hi. destruct (Nat.eq_dec i (Datatypes.S k)) as [->|]; [lia|]. apply B. lia. }
  assert (Hl : (0 < List.length l)%nat) by (destruct l; [congruence|cbn; lia]).
  destruct (H (List.length l - 1)%nat ltac:(lia)) as (A & B & C). cbv zeta in A, B, C.
  split; [lia|]. split; [intros i Hi; apply B; lia|exact C].
Qed.

(** Nothing given: the longest of the parts between onsets (the last one ends at the
    end of the sound), the first of them if there are more; all if there are no onsets. *)
Theorem c98_crop_longest fs o n : positions o n -> exists a b,
  crop_bounds None None fs (Ok o) n = Ok (a, b) /\
  ((o = [] /\ a = 0%Z /\ b = n) \/
   (In a o /\ next_onset o n a b /\
    forall c d, In c o -> next_onset o n c d -> (d - c <= b - a)%Z /\ ((c < a)%Z -> (d - c < b - a)%Z))).
Proof.
  intros Hp. unfold crop_bounds. cbn [option_map bind]. set (ons := o ++ [n]).
  assert (Hl : List.length ons = Datatypes.S (List.length o)) by (unfold ons; rewrite app_length; cbn; lia).
  destruct (Nat.ltb_spec (List.length ons) 2) as [H|H].
  - exists 0%Z, n. split; [reflexivity|]. left. rewrite Hl in H. destruct o; [split; [reflexivity|split; reflexivity]|cbn in H; lia].
  - pose proof (positions_snoc o n Hp) as Hs. fold ons in Hs. destruct Hp as [_ Hb].
    destruct (argmax_spec (zdiff ons)) as (Hm & Hmax & Hfirst).
    { intros E. apply (f_equal (@List.length Z)) in E. rewrite zdiff_length in E. cbn in E. lia. }
    set (m := argmax (zdiff ons)) in *. rewrite zdiff_length in Hm, Hmax.
    assert (Hgap : forall i, (Datatypes.S i < List.length ons)%nat -> forall d, next_onset o n (nth i ons 0%Z) d -> d = nth (Datatypes.S i) ons 0%Z).
    { intros i Hi d (Hd & Hlt & Hleast).
      assert (Hin : forall j, (j < List.length ons)%nat -> In (nth j ons 0%Z) o \/ nth j ons 0%Z = n).
      { intros j Hj. assert (In (nth j ons 0%Z) ons) by (apply nth_In; exact Hj). unfold ons in H0 at 2.
        apply in_app_or in H0 as [H0|[H0|[]]]; [left; exact H0|right; symmetry; exact H0]. }
      pose proof (Hleast _ (Hin (Datatypes.S i) Hi) (Hs i (Datatypes.S i) ltac:(lia) Hi)) as Hle.
      assert (Hd' : In d ons) by (unfold ons; apply in_or_app; destruct Hd as [Hd| ->]; [left; exact Hd|right; left; reflexivity]).
      apply (In_nth _ _ 0%Z) in Hd' as (j & Hj & Ej).
      destruct (Nat.lt_trichotomy j (Datatypes.S i)) as [Hji|[->|Hji]]; [|symmetry; exact Ej|].
      - destruct (Nat.eq_dec j i) as [->|]; [lia|]. pose proof (Hs j i ltac:(lia) ltac:(lia)). lia.
      - pose proof (Hs (Datatypes.S i) j Hji Hj). lia. }
    assert (Hmo : (m < List.length o)%nat) by (rewrite Hl in Hm; lia).
    assert (Ham : In (nth m ons 0%Z) o) by (unfold ons; rewrite app_nth1 by exact Hmo; apply nth_In; exact Hmo).
    pose proof (until_spec o n (nth m ons 0%Z) ltac:(apply Hb; exact Ham)) as Hu. fold ons in Hu.
    eexists. eexists. split; [reflexivity|]. right. split; [exact Ham|]. split; [exact Hu|].
    pose proof (Hgap m ltac:(lia) _ Hu) as Eb. rewrite Eb in *.
    intros c d Hc Hd. apply (In_nth _ _ 0%Z) in Hc as (i & Hi & Ei).
    assert (Ec : nth i ons 0%Z = c) by (unfold ons; rewrite app_nth1 by exact Hi; exact Ei). rewrite <- Ec in *.
    rewrite (Hgap i ltac:(lia) _ Hd).
    rewrite <- (zdiff_nth ons i) by lia. rewrite <- (zdiff_nth ons m) by lia.
    split; [apply Hmax; lia|]. intros Hlt. apply Hfirst. destruct (Nat.lt_ge_cases i m) as [|Hge]; [assumption|exfalso].
    destruct (Nat.eq_dec i m) as [->|]; [lia|]. pose proof (Hs m i ltac:(lia) ltac:(lia)). lia.
Qed.
Print Assumptions c98_crop_longest.

(** The audio between the bounds is analysed, and written to a new file; errors of the
    onset detection are raised if it is needed. *)
Theorem c98_crop {A} start stop fs onsets input cropped (x : list A) :
  crop_audio true start stop fs onsets input cropped x = Ok (x, None) /\
  (forall a b, crop_bounds start stop fs onsets (zlen x) = Ok (a, b) -> (0 <= a <= b)%Z -> (b <= zlen x)%Z ->
    exists y p, crop_audio false start stop fs onsets input cropped x = Ok (y, Some (p, y)) /\
      zlen y = (b - a)%Z /\ (forall i d, (i < List.length y)%nat -> nth i y d = nth (Z.to_nat a + i) x d) /\
      match cropped with Some q => p = q | None => p = out_name (list_ascii_of_string "-cropped") input end) /\
  (forall e, onsets = Err e -> start = None \/ stop = None -> crop_audio false start stop fs onsets input cropped x = Err e).
Proof.
  split; [reflexivity|]. split.
  - intros a b E Ha Hb. unfold crop_audio. rewrite E. cbn [bind fst snd].
    eexists. eexists. split; [reflexivity|].
    assert (Es : slice (Some a) (Some b) x = firstn (Z.to_nat (b - a)) (skipn (Z.to_nat a) x)).
    { unfold slice, lo_bound, hi_bound, slice_bound. destruct (Z.ltb_spec a 0); [lia|]. destruct (Z.ltb_spec b 0); [lia|].
      rewrite !Z.min_l by lia. f_equal. lia. }
    rewrite Es. unfold zlen in *. split; [rewrite firstn_length, skipn_length; lia|]. split.
    + intros i d Hi. rewrite firstn_length, skipn_length in Hi.
      rewrite <- (firstn_skipn (Z.to_nat a) x) at 2. rewrite app_nth2 by (rewrite firstn_length; lia).
      rewrite firstn_length, Nat.min_l by lia. replace (Z.to_nat a + i - Z.to_nat a)%nat with i by lia.
      rewrite <- (firstn_skipn (Z.to_nat (b - a)) (skipn (Z.to_nat a) x)) at 2.
      rewrite app_nth1 by (rewrite firstn_length, skipn_length; lia). reflexivity.
    + destruct cropped; reflexivity.
  - intros e -> H. unfold crop_audio, crop_bounds. destruct start, stop; destruct H as [H|H]; try discriminate; reflexivity.
Qed.
Print Assumptions c98_crop.

(** ** Resynthesis *)

Lemma fold_Rmax_ge l : forall a, (forall v, In v (a :: l) -> v <= fold_left Rmax l a) /\ In (fold_left Rmax l a) (a :: l).
Proof.
  induction l as [|y l IH]; intros v; cbn [fold_left].
  - split; [intros x [->|[]]; lra|left; reflexivity].
  - destruct (IH (Rmax v y)) as [B A]. pose proof (B _ (or_introl eq_refl)) as B0. pose proof (Rmax_l v y). pose proof (Rmax_r v y). split.
    + intros x [<-|[<-|H1]]; [lra|lra|apply B; right; exact H1].
    + destruct A as [A|A]; [|right; right; exact A]. rewrite <- A. unfold Rmax. destruct (Rle_dec v y); [right; left|left]; reflexivity.
Qed.

(** The resynthesis is written as it is if no sample exceeds the threshold or clipping
    is allowed; otherwise it is turned down such that the peak is the threshold. *)
Theorem c98_resynth clip th input output y : 0 < th -> y <> [] -> exists p g z,
  resynth_audio clip th input output y = Ok (p, z) /\
  match output with Some q => p = q | None => p = out_name (list_ascii_of_string "-output") input end /\
  0 < g <= 1 /\ z = map (fun v => v * g) y /\
  (clip = true \/ (forall v, In v y -> Rabs v <= th) -> z = y) /\
  (clip = false -> (forall v, In v z -> Rabs v <= th) /\ ((exists v, In v y /\ th < Rabs v) -> exists v, In v z /\ Rabs v = th)).
Proof.
  intros Hth Hne. unfold resynth_audio.
  destruct (map Rabs y) as [|a l] eqn:E; [apply map_eq_nil in E; contradiction|].
  destruct (fold_Rmax_ge l a) as [Hge Hin]. set (p := fold_left Rmax l a) in *. rewrite <- E in Hge, Hin.
  assert (Hge' : forall v, In v y -> Rabs v <= p) by (intros v Hv; apply Hge, in_map, Hv).
  apply in_map_iff in Hin as (w & Ew & Hw).
  assert (Hone : y = map (fun v => v * 1) y) by (rewrite <- (map_id y) at 1; apply map_ext; intros; ring).
  exists (match output with Some q => q | None => out_name (list_ascii_of_string "-output") input end).
  destruct (Rlt_dec th p) as [Hp|Hp]; [destruct clip|].
  - exists 1, y. split; [reflexivity|]. split; [destruct output; reflexivity|]. split; [lra|]. split; [exact Hone|].
    split; [reflexivity|discriminate].
  - exists (th / p), (map (fun v => v * (th / p)) y). split; [reflexivity|]. split; [destruct output; reflexivity|].
    assert (Hg : 0 < th / p) by (apply Rdiv_lt_0_compat; lra).
    assert (Hg1 : th / p * p = th) by (field; lra).
    split; [split; [exact Hg|]; apply (Rmult_le_reg_r p); [lra|]; rewrite Hg1; lra|]. split; [reflexivity|]. split.
    + intros [H|H]; [discriminate|]. specialize (H w Hw). lra.
    + intros _. split.
      * intros v Hv. apply in_map_iff in Hv as (u & <- & Hu). rewrite Rabs_mult, (Rabs_pos_eq (th / p)) by lra.
        apply (Rle_trans _ (p * (th / p))); [|lra]. apply Rmult_le_compat_r; [lra|apply Hge'; exact Hu].
      * intros _. exists (w * (th / p)). split; [apply in_map_iff; exists w; split; [reflexivity|exact Hw]|].
        rewrite Rabs_mult, (Rabs_pos_eq (th / p)), Ew by lra. lra.
  - exists 1, y. split; [reflexivity|]. split; [destruct output; reflexivity|]. split; [lra|]. split; [exact Hone|].
    split; [reflexivity|]. intros _. split; [intros v Hv; specialize (Hge' v Hv); lra|].
    intros (v & Hv & Hlt). specialize (Hge' v Hv). exfalso; lra.
Qed.
Print Assumptions c98_resynth.

(** Nothing to write: an error. *)
Theorem c98_resynth_empty clip th input output : resynth_audio clip th input output [] = Err ValueError.
Proof. reflexivity. Qed.
Print Assumptions c98_resynth_empty.

(** ** Progress *)

(** After any number of updates, whichever of them are shown, the counter is their
    number and the bar shows one of the values so far; in the end it is full. *)
Theorem c98_progress bar maximum shown :
  let p := fold_left (fun p s => progress_update s None p) shown (progress_start maximum 0 (mkProgress 0 bar)) in
  pr_count p = INR (List.length shown) /\
  (forall b, bar = Some b -> exists v, pr_bar p = Some (v, maximum) /\ 0 <= v <= pr_count p /\
     (last shown false = true -> v = pr_count p) /\ pr_bar (progress_stop p) = Some (maximum, maximum)).
Proof.
  cbv zeta. induction shown as [|s shown IH] using rev_ind.
  - cbn. split; [reflexivity|]. intros b ->. exists 0. cbn. split; [reflexivity|]. split; [lra|]. split; [discriminate|reflexivity].
  - rewrite fold_left_app. cbn [fold_left]. set (p := fold_left _ shown _) in *. destruct IH as [IH1 IH2].
    rewrite app_length, plus_INR. cbn [List.length]. split; [cbn; rewrite IH1; reflexivity|].
    intros b Hb. destruct (IH2 b Hb) as (v & E & Hv & _). rewrite last_last. unfold progress_update. rewrite E.
    destruct s.
    + exists (pr_count p + 1). cbn. split; [reflexivity|]. split; [lra|]. split; reflexivity.
    + exists v. cbn. split; [reflexivity|]. split; [lra|]. split; [discriminate|reflexivity].
Qed.
Print Assumptions c98_progress.

(** ** Example *)
Example c98_example :
  let s := list_ascii_of_string in
  named (s "a.b/piano.1.wav"%string) (s "a.b/piano.1"%string) (s ".wav"%string) /\
  out_name (s "-cropped"%string) (s "a.b/piano.1.wav"%string) = s "a.b/piano.1-cropped.wav"%string /\
  out_name (s "-output"%string) (s "a.b/.wav"%string) = s "a.b/.wav-output"%string /\
  positions [2; 5; 9]%Z 12 /\
  crop_bounds None None 44100 (Ok [2; 5; 9]%Z) 12 = Ok (5, 9)%Z /\
  resynth_audio false 1 (s "x"%string) (Some (s "y"%string)) [1; -4; 2] = Ok (s "y"%string, map (fun v => v * (1 / 4)) [1; -4; 2]).
Proof.
  cbv zeta. split; [|split; [reflexivity|split; [reflexivity|split; [|split; [reflexivity|]]]]].
  - apply (named_ext (list_ascii_of_string "a.b/"%string) (list_ascii_of_string "piano.1"%string) (list_ascii_of_string "wav"%string)).
    + right. exists (list_ascii_of_string "a.b"%string). reflexivity.
    + cbn. intros H. repeat destruct H as [H|H]; try discriminate H. exact H.
    + exists "p"%char. split; [left; reflexivity|discriminate].
    + cbn. intros H. repeat destruct H as [H|H]; try discriminate H. exact H.
    + cbn. intros H. repeat destruct H as [H|H]; try discriminate H. exact H.
  - split; [|intros a [<-|[<-|[<-|[]]]]; lia]. intros [|[|[|i]]] [|[|[|j]]] Hij Hj; cbn in *; lia.
  - unfold resynth_audio. cbn [map fold_left]. rewrite Rabs_R1, (Rabs_left (-4)), (Rabs_pos_eq 2) by lra.
    replace (Rmax (Rmax 1 (- -4)) 2) with 4 by (unfold Rmax; repeat destruct (Rle_dec _ _); lra).
    destruct (Rlt_dec 1 4); [reflexivity|lra].
Qed.
Print Assumptions c98_example.
