(** C12, C37, C39 once more, with the meaning of the regular expressions given by
    [SpecStr] instead of by the functions of the model. *)
From Coq Require Import String Ascii List Bool NArith PeanoNat Lia.
From Verif Require Import ModelStr SpecStr ProofsStr ProofsLex.
Import ListNotations.
Local Open Scope string_scope.
Local Open Scope bool_scope.

(** ** C39: the accepted names are the identifiers, with or without a newline at the end *)
Theorem C39_identifier s : valid_identifier s = true <->
  identifier s \/ exists t, s = t ++ String "010" "" /\ identifier t.
Proof.
  rewrite <- ident_identifier. unfold valid_identifier. split.
  - intros H. destruct (chomp_spec s) as [E|E].
    + left. now rewrite E in H.
    + right. exists (chomp s). rewrite <- ident_identifier. auto.
  - intros [H|(t & -> & H)].
    + destruct (chomp_spec s) as [E|E]; [now rewrite E|].
      exfalso. apply ident_identifier in H. destruct H as (c & t & -> & Hc & Ht).
      destruct (chomp (String c t)) as [|c' u] eqn:Ec; cbn in E; injection E as -> E.
      * discriminate Hc.
      * subst t. assert (G : forall u k, (forall i d, String.get i (u ++ String newline "") = Some d -> k d = true) -> k newline = true).
        { clear. induction u as [|x u IH]; intros k H; [now apply (H 0)|].
          apply IH. intros i d E. apply (H (S i)). exact E. }
        specialize (G u _ Ht). discriminate G.
    + rewrite chomp_app by discriminate. change (chomp (String "010" "")) with "".
      rewrite app_empty_r. now apply ident_identifier.
Qed.
Print Assumptions C39_identifier.
Example C39_identifier_case : identifier "conv_2D" /\ ~ identifier "2d" /\ ~ identifier "a/b" /\ ~ identifier "".
Proof. repeat split; rewrite <- ident_identifier; vm_compute; congruence. Qed.

(** ** C37: the default name, position by position *)
(** [camel_to_snake] writes every character in lower case and an underscore before
    exactly the positions matched by the regular expression. *)
Theorem C37_exact s : camel_to_snake s = String.concat "" (map (snake_piece s) (seq 0 (String.length s))).
Proof. exact (camel_aux_pieces s ""). Qed.
Print Assumptions C37_exact.
Example C37_exact_case : map (boundary "MLPLayer2D") (seq 0 10)
  = [false; false; false; true; false; false; false; false; false; true].
Proof. reflexivity. Qed.

(** ** C12: when a name counts as numbered by the user *)
Theorem C12_explicit s b n : explicit_number s = Some (b, n) <->
  exists ds nl, s = b ++ "_" ++ ds ++ nl /\ (nl = "" \/ nl = String "010" "") /\
    ds <> "" /\ all_digits ds /\ decimal ds 0 = n.
Proof. apply explicit_number_spec. Qed.
Print Assumptions C12_explicit.
Example C12_explicit_case : explicit_number "conv_2_010" = Some ("conv_2", 10%N) /\ explicit_number "conv2" = None
  /\ explicit_number "_7" = Some ("", 7%N) /\ explicit_number "x_" = None.
Proof. vm_compute. auto. Qed.
