(** setup.py, and [linkcode_resolve] of docs/conf.py:167-199. Of setuptools only [find_namespace_packages] is modelled, without symbolic links; of
    [inspect] and [sys] only whether they find or raise. *)
From Coq Require Import String Ascii List Bool Arith NArith.
From Verif Require Import ModelStr ModelRepr.
Import ListNotations.
Local Open Scope string_scope.
Local Open Scope list_scope.

(** ** Packages *)
(** A directory and the directories in it. *)
Inductive tree := Dir (name : string) (children : list tree).
Definition dir_name (t : tree) : string := match t with Dir n _ => n end.
(** [fnmatch.fnmatchcase], for patterns without brackets. *)
Fixpoint glob (p s : string) : bool :=
  match p with
  | "" => match s with "" => true | _ => false end
  | String c p =>
      if Ascii.eqb c "*" then (fix any s := glob p s || match s with "" => false | String _ t => any t end) s
      else match s with
           | "" => false
           | String d t => (Ascii.eqb c "?" || Ascii.eqb c d) && glob p t
           end
  end.
(** The package of a directory: its path with dots for separators. *)
Definition join (pkg name : string) : string := match pkg with "" => name | _ => (pkg ++ "." ++ name)%string end.
(** setuptools [PEP420PackageFinder]: directories with a dot in their name are left out with all that is in them; [exclude] leaves out a package, but
    not those inside of it. The directories of one directory come before those in them. *)
Fixpoint walk (exclude : list string) (pkg : string) (t : tree) : list string :=
  match t with
  | Dir _ cs =>
      flat_map (fun c => if contains "." (dir_name c) then []
                         else let p := join pkg (dir_name c) in if existsb (fun e => glob e p) exclude then [] else [p]) cs ++
      flat_map (fun c => if contains "." (dir_name c) then [] else walk exclude (join pkg (dir_name c)) c) cs
  end.
(** setup.py:54 [find_namespace_packages(exclude=['*_test.py'])]; setuptools adds the two patterns in front. *)
Definition packages (root : tree) : list string := walk ["ez_setup"; "*__pycache__"; "*_test.py"] "" root.
(** The directories of the repository. *)
Definition repository : tree :=
  Dir "dm-haiku" [
    Dir ".github" [Dir "workflows" []]; Dir "docs" [Dir "ext" []; Dir "notebooks" []];
    Dir "examples" [Dir "imagenet" []; Dir "impala" []; Dir "rnn" []; Dir "transformer" []];
    Dir "haiku" [Dir "_src" [Dir "integration" [Dir "checkpoints" []]; Dir "nets" []]; Dir "benchmarks" []]].

(** ** Version and requirements *)
(** What can come of [_get_version]. *)
Inductive version := Version (v : string) | NoLine | NotSet | ExecRaises.
(** setup.py:21-28. [exec line]: [None] if it raises, otherwise the value of [__version__], if the line sets it. *)
Fixpoint get_version (exec : string -> option (option string)) (file : list string) : version :=
  match file with
  | [] => NoLine
  | line :: file =>
      if String.prefix "__version__" line
      then match exec line with None => ExecRaises | Some None => NotSet | Some (Some v) => Version v end
      else get_version exec file
  end.
(** setup.py:31-33. *)
Definition parse_requirements (text : string) : list string := splitlines false text.

(** ** Links to the source *)
Section Link.
Context {obj : Type} (modules : string -> option obj) (attr : obj -> string -> option obj) (unwrap : obj -> obj).
(** [inspect.getsourcefile]: [None] if it raises a TypeError, otherwise the file or [None]. [inspect.getsourcelines]: [None] if it raises an OSError,
    otherwise how many lines there are and the number of the first. [relpath]: relative to the directory of the package. *)
Context (sourcefile : obj -> option (option string)) (sourcelines : obj -> option (nat * nat)) (relpath : string -> string).
Inductive link := Url (u : string) | NoLink | KeyError | TypeError.
Fixpoint split_dot (cur s : string) : list string :=
  match s with
  | "" => [cur]
  | String c t => if Ascii.eqb c "." then cur :: split_dot "" t else split_dot (cur ++ String c "")%string t
  end.
Fixpoint attributes (o : obj) (names : list string) : option obj :=
  match names with [] => Some o | n :: names => match attr o n with Some o => attributes o names | None => None end end.
(** docs/conf.py:167-199. [sys.modules[…]] raises a KeyError, which [except ImportError] does not catch. *)
Definition linkcode_resolve (domain module fullname : string) : link :=
  if negb (String.eqb domain "py") then NoLink
  else match modules module with
       | None => KeyError
       | Some m =>
           match attributes m (split_dot "" fullname) with
           | None => NoLink
           | Some o =>
               let o := unwrap o in
               match sourcefile o with
               | None => NoLink
               | Some filename =>
                   match sourcelines o with
                   | None => NoLink
                   | Some (len, lineno) =>
                       match filename with
                       | None => TypeError
                       | Some filename =>
                           Url ("https://github.com/deepmind/dm-haiku/blob/master/haiku/" ++ relpath filename
                                ++ "#L" ++ str_of_N (N.of_nat lineno) ++ "#L" ++ str_of_N (N.of_nat (lineno + len - 1)))%string
                       end
                   end
               end
           end
       end.
End Link.
