(** When a key of a parameter tree is unambiguous. *)
From Coq Require Import String Ascii List.
From Verif Require Import SpecStr.
Import ListNotations.
Local Open Scope string_scope.

(** A piece of a module name between slashes, or a parameter name: an identifier without
    two underscores in a row, not starting or ending with one; or such an identifier, or
    nothing, after a "~" (module.py:556-601: method names other than "__call__"). *)
Definition no_double (s : string) : Prop := forall a b, s <> a ++ "__" ++ b.
Definition body_ok (s : string) : Prop :=
  identifier s /\ no_double s /\ (forall t, s <> String "_" t) /\ (forall t, s <> t ++ "_").
Definition piece_ok (s : string) : Prop :=
  body_ok s \/ s = "~" \/ exists b, s = String "~" b /\ body_ok b.
(** A key: pieces joined by slashes. *)
Definition key_ok (k : string) : Prop :=
  exists ps, ps <> [] /\ Forall piece_ok ps /\ k = String.concat "/" ps.

(** The key does not end in an underscore and digits. *)
Definition not_numbered (k : string) : Prop := forall b ds, k = b ++ "_" ++ ds -> ds <> "" -> ~ all_digits ds.
(** A nested dictionary: no module twice, no parameter of a module twice; parameter names
    without slash. *)
Definition tree_ok (t : list (string * list string)) : Prop :=
  NoDup (map fst t) /\
  forall m ps, In (m, ps) t -> NoDup ps /\ forall p i, In p ps -> String.get i p <> Some "/"%char.
