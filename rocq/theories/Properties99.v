(** C101, fourth part: the primitives of Python that the texts are made with, character by character and on cases; the right-hand sides are what
    Python 3 returns. *)
From Coq Require Import String Ascii List Bool Arith ZArith NArith Lia.
From Verif Require Import ModelStr ModelUtils ProofsStr ModelRepr.
Import ListNotations.
Local Open Scope string_scope.
Local Open Scope nat_scope.
Local Open Scope bool_scope.

Lemma every_character (P : ascii -> bool) : forallb (fun n => P (ascii_of_nat n)) (seq 0 256) = true -> forall c, P c = true.
Proof.
  intros H c. rewrite forallb_forall in H. rewrite <- (ascii_nat_embedding c). apply H. apply in_seq. pose proof (nat_ascii_bounded c). lia.
Qed.
(** Of the characters below 256: those that end a line, those that are white space, and those that [repr] does not show as they are. *)
Theorem C101_characters : forall c,
  (line_break c = true <-> In (nat_of_ascii c) [10; 11; 12; 13; 28; 29; 30; 133]) /\
  (is_space c = true <-> In (nat_of_ascii c) [9; 10; 11; 12; 13; 28; 29; 30; 31; 32; 133; 160]) /\
  (printable c = false <-> nat_of_ascii c < 32 \/ 127 <= nat_of_ascii c <= 160 \/ nat_of_ascii c = 173).
Proof.
  intros c. assert (K : forall l, existsb (Nat.eqb (nat_of_ascii c)) l = true <-> In (nat_of_ascii c) l).
  { intros l. rewrite existsb_exists. split; [intros (x & I & E); apply Nat.eqb_eq in E; now subst|intros I; eexists; split; [exact I|apply Nat.eqb_refl]]. }
  split; [|split].
  - rewrite <- K. pose proof (every_character (fun c => Bool.eqb (line_break c) (existsb (Nat.eqb (nat_of_ascii c)) [10; 11; 12; 13; 28; 29; 30; 133])) ltac:(vm_compute; reflexivity) c) as H.
    apply eqb_prop in H. now rewrite H.
  - rewrite <- K. pose proof (every_character (fun c => Bool.eqb (is_space c) (existsb (Nat.eqb (nat_of_ascii c)) [9; 10; 11; 12; 13; 28; 29; 30; 31; 32; 133; 160])) ltac:(vm_compute; reflexivity) c) as H.
    apply eqb_prop in H. now rewrite H.
  - unfold printable, code. rewrite orb_false_iff, !andb_false_iff, negb_false_iff, !Nat.leb_gt, Nat.eqb_eq. lia.
Qed.
Print Assumptions C101_characters.

(** [repr] of a string is in ASCII apart from printable characters, and shows every character by itself, by a letter after a backslash, or by its
    two hexadecimal digits. *)
Theorem C101_escapes : forall q c, escape q c =
  if Ascii.eqb c q || Ascii.eqb c "\"%char then String "\" (String c "")
  else match nat_of_ascii c with
       | 9 => "\t" | 10 => "\n" | 13 => "\r"
       | n => if printable c then String c ""
              else String "\" (String "x" (String (ascii_of_nat (if n / 16 <? 10 then 48 + n / 16 else 87 + n / 16)) (String (ascii_of_nat (if n mod 16 <? 10 then 48 + n mod 16 else 87 + n mod 16)) "")))
       end.
Proof.
  intros q c. unfold escape. change backslash with "\"%char. destruct (Ascii.eqb c q || Ascii.eqb c "\"%char); [reflexivity|].
  pose proof (every_character (fun c => String.eqb
    (if code c =? 10 then String "\" "n" else if code c =? 13 then String "\" "r" else if code c =? 9 then String "\" "t" else if printable c then String c ""
     else String "\" (String "x" (String (hex (code c / 16)) (String (hex (code c mod 16)) ""))))
    (match nat_of_ascii c with
       | 9 => "\t" | 10 => "\n" | 13 => "\r"
       | n => if printable c then String c ""
              else String "\" (String "x" (String (ascii_of_nat (if n / 16 <? 10 then 48 + n / 16 else 87 + n / 16)) (String (ascii_of_nat (if n mod 16 <? 10 then 48 + n mod 16 else 87 + n mod 16)) "")))
       end)) ltac:(vm_compute; reflexivity) c) as H. now apply String.eqb_eq in H.
Qed.
Print Assumptions C101_escapes.

Definition text (codes : list nat) : string := fold_right (fun n s => String (ascii_of_nat n) s) "" codes.
(** [str.splitlines()] and [str.splitlines(True)]. *)
Example C101_splitlines_case : Forall (fun p => splitlines false (fst (fst p)) = snd (fst p) /\ splitlines true (fst (fst p)) = snd p) [
    ((text [], []), []);
    ((text [10], [text []]), [text [10]]);
    ((text [97], [text [97]]), [text [97]]);
    ((text [97; 13; 10; 98], [text [97]; text [98]]), [text [97; 13; 10]; text [98]]);
    ((text [97; 10; 13; 98; 13], [text [97]; text []; text [98]]), [text [97; 10]; text [13]; text [98; 13]]);
    ((text [120; 11; 121; 12; 122], [text [120]; text [121]; text [122]]), [text [120; 11]; text [121; 12]; text [122]]);
    ((text [97; 28; 98; 29; 99; 30; 100; 133; 101], [text [97]; text [98]; text [99]; text [100]; text [101]]), [text [97; 28]; text [98; 29]; text [99; 30]; text [100; 133]; text [101]]);
    ((text [10; 10], [text []; text []]), [text [10]; text [10]]);
    ((text [97; 98; 13; 10], [text [97; 98]]), [text [97; 98; 13; 10]]);
    ((text [97; 31; 98; 9; 99; 160], [text [97; 31; 98; 9; 99; 160]]), [text [97; 31; 98; 9; 99; 160]])].
Proof. repeat constructor. Qed.
(** [str.strip] and [str.lstrip]. *)
Example C101_strip_case : Forall (fun p => strip (fst (fst p)) = snd (fst p) /\ lstrip (fst (fst p)) = snd p) [
    ((text [], text []), text []);
    ((text [32; 97; 32; 98; 32], text [97; 32; 98]), text [97; 32; 98; 32]);
    ((text [160; 120; 31], text [120]), text [120; 31]);
    ((text [9; 13; 133; 121; 32; 122; 28], text [121; 32; 122]), text [121; 32; 122; 28]);
    ((text [10; 32; 11], text []), text []);
    ((text [97; 0; 32], text [97; 0]), text [97; 0; 32])].
Proof. repeat constructor. Qed.
(** [repr] of strings. *)
Example C101_repr_str_case : Forall (fun p => repr_str (fst p) = snd p) [
    (text [], text [39; 39]);
    (text [39], text [34; 39; 34]);
    (text [34], text [39; 34; 39]);
    (text [39; 34], text [39; 92; 39; 34; 39]);
    (text [92], text [39; 92; 92; 39]);
    (text [10; 13; 9; 11], text [39; 92; 110; 92; 114; 92; 116; 92; 120; 48; 98; 39]);
    (text [0; 31; 127; 128; 160; 173], text [39; 92; 120; 48; 48; 92; 120; 49; 102; 92; 120; 55; 102; 92; 120; 56; 48; 92; 120; 97; 48; 92; 120; 97; 100; 39]);
    (text [161; 255; 65; 126; 32], text [39; 161; 255; 65; 126; 32; 39]);
    (text [97; 39; 98; 92; 34; 99], text [39; 97; 92; 39; 98; 92; 92; 34; 99; 39]);
    (text [105; 116; 39; 115], text [34; 105; 116; 39; 115; 34])].
Proof. repeat constructor. Qed.
(** [==] and [repr] of values. *)
Definition some_values : list value := [VNone; VBool true; VBool false; VInt 0; VInt 1; VInt (-1); VFloat false 0 "0"; VFloat true 0 "0"; VFloat false 1 "0"; VFloat true 1 "0"; VFloat false 1 "5"; VFloat true 0 "5"; VFloat false 0 "5"; VStr ""; VStr "1"; VStr "None"; VList []; VTuple []; VList [VInt 1]; VTuple [VInt 1]; VList [VInt 1; VInt 2]; VList [VBool true; VFloat false 2 "0"]; VList [VList [VInt 1]; VTuple []]; VList [VTuple [VInt 1]; VTuple []]; VTuple [VInt 1; VInt 2]; VList [VNone]]%Z%N.
Example C101_same_case : map (fun v => map (same v) some_values) some_values = [
    [true; false; false; false; false; false; false; false; false; false; false; false; false; false; false; false; false; false; false; false; false; false; false; false; false; false];
    [false; true; false; false; true; false; false; false; true; false; false; false; false; false; false; false; false; false; false; false; false; false; false; false; false; false];
    [false; false; true; true; false; false; true; true; false; false; false; false; false; false; false; false; false; false; false; false; false; false; false; false; false; false];
    [false; false; true; true; false; false; true; true; false; false; false; false; false; false; false; false; false; false; false; false; false; false; false; false; false; false];
    [false; true; false; false; true; false; false; false; true; false; false; false; false; false; false; false; false; false; false; false; false; false; false; false; false; false];
    [false; false; false; false; false; true; false; false; false; true; false; false; false; false; false; false; false; false; false; false; false; false; false; false; false; false];
    [false; false; true; true; false; false; true; true; false; false; false; false; false; false; false; false; false; false; false; false; false; false; false; false; false; false];
    [false; false; true; true; false; false; true; true; false; false; false; false; false; false; false; false; false; false; false; false; false; false; false; false; false; false];
    [false; true; false; false; true; false; false; false; true; false; false; false; false; false; false; false; false; false; false; false; false; false; false; false; false; false];
    [false; false; false; false; false; true; false; false; false; true; false; false; false; false; false; false; false; false; false; false; false; false; false; false; false; false];
    [false; false; false; false; false; false; false; false; false; false; true; false; false; false; false; false; false; false; false; false; false; false; false; false; false; false];
    [false; false; false; false; false; false; false; false; false; false; false; true; false; false; false; false; false; false; false; false; false; false; false; false; false; false];
    [false; false; false; false; false; false; false; false; false; false; false; false; true; false; false; false; false; false; false; false; false; false; false; false; false; false];
    [false; false; false; false; false; false; false; false; false; false; false; false; false; true; false; false; false; false; false; false; false; false; false; false; false; false];
    [false; false; false; false; false; false; false; false; false; false; false; false; false; false; true; false; false; false; false; false; false; false; false; false; false; false];
    [false; false; false; false; false; false; false; false; false; false; false; false; false; false; false; true; false; false; false; false; false; false; false; false; false; false];
    [false; false; false; false; false; false; false; false; false; false; false; false; false; false; false; false; true; false; false; false; false; false; false; false; false; false];
    [false; false; false; false; false; false; false; false; false; false; false; false; false; false; false; false; false; true; false; false; false; false; false; false; false; false];
    [false; false; false; false; false; false; false; false; false; false; false; false; false; false; false; false; false; false; true; false; false; false; false; false; false; false];
    [false; false; false; false; false; false; false; false; false; false; false; false; false; false; false; false; false; false; false; true; false; false; false; false; false; false];
    [false; false; false; false; false; false; false; false; false; false; false; false; false; false; false; false; false; false; false; false; true; true; false; false; false; false];
    [false; false; false; false; false; false; false; false; false; false; false; false; false; false; false; false; false; false; false; false; true; true; false; false; false; false];
    [false; false; false; false; false; false; false; false; false; false; false; false; false; false; false; false; false; false; false; false; false; false; true; false; false; false];
    [false; false; false; false; false; false; false; false; false; false; false; false; false; false; false; false; false; false; false; false; false; false; false; true; false; false];
    [false; false; false; false; false; false; false; false; false; false; false; false; false; false; false; false; false; false; false; false; false; false; false; false; true; false];
    [false; false; false; false; false; false; false; false; false; false; false; false; false; false; false; false; false; false; false; false; false; false; false; false; false; true]].
Proof. vm_compute. reflexivity. Qed.
Example C101_repr_case : map repr some_values = [text [78; 111; 110; 101]; text [84; 114; 117; 101]; text [70; 97; 108; 115; 101]; text [48]; text [49]; text [45; 49]; text [48; 46; 48]; text [45; 48; 46; 48]; text [49; 46; 48]; text [45; 49; 46; 48]; text [49; 46; 53]; text [45; 48; 46; 53]; text [48; 46; 53]; text [39; 39]; text [39; 49; 39]; text [39; 78; 111; 110; 101; 39]; text [91; 93]; text [40; 41]; text [91; 49; 93]; text [40; 49; 44; 41]; text [91; 49; 44; 32; 50; 93]; text [91; 84; 114; 117; 101; 44; 32; 50; 46; 48; 93]; text [91; 91; 49; 93; 44; 32; 40; 41; 93]; text [91; 40; 49; 44; 41; 44; 32; 40; 41; 93]; text [40; 49; 44; 32; 50; 41]; text [91; 78; 111; 110; 101; 93]].
Proof. vm_compute. reflexivity. Qed.
