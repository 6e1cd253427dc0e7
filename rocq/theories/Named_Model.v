(** [NamedObjectMeta], [NamedObject] and [NamedCallable] (sample/utils/__init__.py lines 215-248). *)
From Coq Require Import String Bool List.
Import ListNotations.
From Verif Require Import Base Py.

(** Classes made by the metaclass: [NamedObject] (226-241), [NamedCallable] (243-248), and classes derived from the first one, or from the second one, that
    add no methods. *)
Inductive n_class := NObject | NCallable | NDerived | NDerivedCallable.
(** Objects, as far as these classes see them: with or without [__name__], callable or not ([A]: arguments, [B]: results), or wrapped. *)
Inductive n_obj (A B : Type) :=
| NPlain (name : option string)
| NFun (name : option string) (f : A -> res B)
| NWrap (c : n_class) (obj : n_obj A B) (name : option string).
Arguments NPlain {A B}. Arguments NFun {A B}. Arguments NWrap {A B}.

(** Whether a class defines or inherits [__call__], lines 246-248. *)
Definition n_has_call (c : n_class) : bool := match c with NCallable | NDerivedCallable => true | _ => false end.
(** [callable(obj)], line 220: looks at the class only. *)
Definition n_callable {A B} (o : n_obj A B) : bool :=
  match o with NPlain _ => false | NFun _ _ => true | NWrap c _ _ => n_has_call c end.
(** [cls is NamedObject], line 220. *)
Definition n_is_object (c : n_class) : bool := match c with NObject => true | _ => false end.
(** [cls(obj, name)], lines 218-223 and 233-236. *)
Definition n_make {A B} (c : n_class) (o : n_obj A B) (name : option string) : n_obj A B :=
  let f := if n_callable o && n_is_object c then NCallable else c in
  NWrap f o name.
(** [obj(args)], lines 246-248: TypeError if there is no [__call__]. *)
Fixpoint n_call {A B} (o : n_obj A B) (a : A) : res B :=
  match o with
  | NPlain _ => Err TypeError
  | NFun _ f => f a
  | NWrap c o _ => if n_has_call c then n_call o a else Err TypeError
  end.
(** [obj.__name__]: AttributeError if it was not set (lines 235-236; the delegation of lines 238-240 is commented out). *)
Definition n_name {A B} (o : n_obj A B) : res string :=
  match o with NPlain n | NFun n _ | NWrap _ _ n => match n with Some s => Ok s | None => Err AttributeError end end.
