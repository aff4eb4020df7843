(** Names of the modules that [EMAParamsTree] (moving_averages.py:138-214) and
    [SNParamsTree] (spectral_norm.py:148-205) make, one for every parameter. *)
From Coq Require Import String Ascii List Bool.
Import ListNotations.
Local Open Scope string_scope.

(** [k.replace("/", "__").replace("~", tilde)]: what replaces a slash contains no "~", so
    both can be done character by character. *)
Fixpoint mangle (tilde : string) (k : string) : string :=
  match k with
  | EmptyString => EmptyString
  | String c k =>
      (if Ascii.eqb c "/" then "__" else if Ascii.eqb c "~" then tilde else String c "")
      ++ mangle tilde k
  end.
(** moving_averages.py:200. *)
Definition ema_name (k : string) : string := mangle "_tilde_" k.
(** spectral_norm.py:193. *)
Definition sn_name (k : string) : string := mangle "_tilde" k.

(** The tree as the list of its items in the order of iteration; only names matter here.
    moving_averages.py:206-213, spectral_norm.py:198-204: the keys handed to [maybe_ema]
    or [maybe_sn], in order. *)
Definition params_tree := list (string * list string).
Definition tree_keys (t : params_tree) : list string :=
  flat_map (fun mp => map (fun p => String.concat "/" [fst mp; p]) (snd mp)) t.
(** moving_averages.py:196-204: parameters whose key matches [ignore_regex] are passed
    through, every other one gets a module, whose name is requested. [ignored] stands for the
    regular expression. *)
Definition requested (name : string -> string) (ignored : string -> bool) (t : params_tree) : list string :=
  map name (filter (fun k => negb (ignored k)) (tree_keys t)).
