(** Vocabulary for properties of [params_dict], [hk.lift], [optimize_rng_use]. *)
From stdpp Require Import gmap list strings.
From Coq Require Import String Ascii ZArith.
From Verif Require Import ModelStr ModelRng ModelCore SpecCore.
Local Open Scope string_scope.
Local Open Scope list_scope.

(** Entries under name [b] belong to the module named [mn]: its own, those of modules
    below it, those of modules recorded as its submodules. *)
Definition owns (mn : string) (subs : gset string) (b : string) : Prop :=
  b = mn \/ (exists t, b = mn +:+ "/" +:+ t) \/ b ∈ subs.

(** The names recorded as submodules of a module object. *)
Definition submodules (w : world) (m : nat) : option (gset string) :=
  match w_mods w !! m with Some o => mo_subs o | None => None end.

(** Names without slash in a collection. *)
Definition slash_free {A} (col : bundles A) : Prop :=
  forall b n v, lookup2 b n col = Some v -> has_char "/" n = false.
