(** Lemmas about strings. *)
From Coq Require Import String Ascii List Bool Lia.
Import ListNotations.
Local Open Scope string_scope.

Lemma sapp_assoc : forall a b c : string, (a ++ b) ++ c = a ++ b ++ c.
Proof. induction a as [|x a IH]; intros; simpl; [reflexivity|]. now rewrite IH. Qed.
Lemma sapp_nil : forall a : string, a ++ "" = a.
Proof. induction a as [|x a IH]; simpl; [reflexivity|]. now rewrite IH. Qed.
Lemma sapp_inj : forall a b c : string, a ++ b = a ++ c -> b = c.
Proof. induction a as [|x a IH]; simpl; intros b c H; [exact H|]. injection H. apply IH. Qed.
Lemma prefix_spec : forall p s, String.prefix p s = true <-> exists r, s = p ++ r.
Proof.
  induction p as [|x p IH]; intro s.
  - split; [intros _; exists s; reflexivity|]. intros _. destruct s; reflexivity.
  - destruct s as [|y s]; simpl.
    + split; [discriminate|]. intros [r [=]].
    + destruct (ascii_dec x y) as [->|N].
      * rewrite IH. split; intros [r E]; exists r; [now rewrite E|now injection E].
      * split; [discriminate|]. intros [r [= E _]]. congruence.
Qed.
Lemma prefix_app : forall p r, String.prefix p (p ++ r) = true.
Proof. intros. apply prefix_spec. eauto. Qed.

(** [s] occurs in [t]. *)
Definition occurs (s t : string) : Prop := exists a b, t = a ++ s ++ b.
Lemma occurs_refl : forall s, occurs s s.
Proof. intro s. exists "", "". simpl. now rewrite sapp_nil. Qed.
Lemma occurs_r : forall s a t, occurs s t -> occurs s (a ++ t).
Proof. intros s a t (x & y & ->). exists (a ++ x), y. now rewrite !sapp_assoc. Qed.
Lemma occurs_l : forall s a t, occurs s t -> occurs s (t ++ a).
Proof. intros s a t (x & y & ->). exists x, (y ++ a). now rewrite !sapp_assoc. Qed.
Lemma occurs_concat : forall s sep l, In s l -> occurs s (String.concat sep l).
Proof.
  intros s sep l. induction l as [|x l IH]; intro H; [destruct H|].
  destruct l as [|y l].
  - destruct H as [->|[]]. apply occurs_refl.
  - change (String.concat sep (x :: y :: l)) with (x ++ sep ++ String.concat sep (y :: l)).
    destruct H as [->|H]; [apply occurs_l, occurs_refl|]. apply occurs_r, occurs_r, IH, H.
Qed.
