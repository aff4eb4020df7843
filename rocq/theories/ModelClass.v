(** * How classes of modules are made (module.py:61-147, 378-384, 474-501, 536-553)

    Functions are values: [Raw] is a function as written, with the flag that [transparent] clears; [Wrapped] is what [wrap_method] makes of
    it. A class is the dictionary its body leaves, a hierarchy is a list of classes in method resolution order. *)
From stdpp Require Import gmap list strings.
From Coq Require Import String Ascii ZArith.
From Verif Require Import ModelStr ModelCore.
Local Open Scope string_scope.
Local Open Scope list_scope.

Inductive fn := Raw (id : nat) (scoped : bool) | Wrapped (method : string) (f : fn).
(** [getattr(f, "__haiku_name_scope", True)]; functools.wraps copies the attributes of the function it wraps. *)
Fixpoint scope_flag (f : fn) : bool := match f with Raw _ b => b | Wrapped _ f => scope_flag f end.
(** module.py:395-396 and 398: transparent functions are left alone. *)
Definition wrap (method : string) (f : fn) : fn := if scope_flag f then Wrapped method f else f.
(** module.py:536-553 [transparent] on a function as written. *)
Definition transparent (f : fn) : fn := match f with Raw i _ => Raw i false | w => w end.
(** The method names under which a call enters its module, outermost first. Interceptors run once for each of them. *)
Fixpoint enters (f : fn) : list string := match f with Raw _ _ => [] | Wrapped m f => m :: enters f end.

(** What a class body can assign: functions, properties, and anything else (static and class methods, other callables, data).
    [AutoRepr] is the [__repr__] that the metaclass adds. *)
Inductive attr := Method (f : fn) | Property (fget fset fdel : option fn) | Other (id : nat) | AutoRepr.
Definition body := list (string * attr).

Fixpoint starts_with (p s : string) : bool :=
  match p, s with EmptyString, _ => true | String a p, String b s => (a =? b)%char && starts_with p s | _, _ => false end.
(** module.py:76-85: the names that are patched. *)
Definition patched (key : string) : bool :=
  negb (key =? "module_name")%string && (negb (starts_with "__" key) || (key =? "__call__")%string).
(** module.py:87-97, 113-122. *)
Definition patch (kv : string * attr) : string * attr :=
  let '(k, v) := kv in
  (k, if patched k then
        match v with
        | Method f => Method (wrap k f)
        | Property g s d => Property (option_map (wrap k) g) (option_map (wrap k) s) (option_map (wrap k) d)
        | v => v
        end
      else v).
Fixpoint find (key : string) (c : body) : option attr :=
  match c with [] => None | (k, v) :: c => if (k =? key)%string then Some v else find key c end.
Definition setdefault (key : string) (v : attr) (c : body) : body := match find key c with Some _ => c | None => c ++ [(key, v)] end.
(** module.py:67-122 [ModuleMetaclass.__new__]. *)
Definition new_class (c : body) : body := setdefault "__repr__" AutoRepr (setdefault "_is_protocol" (Other 0) (List.map patch c)).
(** Attribute lookup on an instance or on [super()]: the first class that has it. *)
Fixpoint lookup_mro (key : string) (mro : list body) : option attr :=
  match mro with [] => None | c :: mro => match find key c with Some v => Some v | None => lookup_mro key mro end end.

(** Names with two leading underscores are mangled by Python before they reach the dictionary, unless they end with two. *)
Fixpoint strip_underscores (s : string) : string := match s with String "_" s => strip_underscores s | s => s end.
Fixpoint ends_with_dunder (s : string) : bool := match s with String a r => (s =? "__")%string || ends_with_dunder r | EmptyString => false end.
Definition mangle_key (cls key : string) : string :=
  if starts_with "__" key && negb (ends_with_dunder key) then
    match strip_underscores cls with "" => key | c => "_" +:+ c +:+ key end
  else key.

(** module.py:124-147 [ModuleMetaclass.__call__]: [ran]: [__init__] got to the base constructor, which sets [module_name] and [_submodules].
    The result is the method names that were entered, or the error for the missing super constructor. *)
Definition construct (mro : list body) (ran : bool) : option (list string) :=
  let entered := match lookup_mro "__init__" mro with Some (Method f) => enters (wrap "__init__" f) | _ => [] end in
  if ran || match lookup_mro "module_name" mro with Some _ => true | None => false end then Some entered else None.

(** module.py:485-494: the name that the base constructor asks for. [self.name] may be missing, [None], a string or something else (a
    method called [name], say, which [re.match] rejects). *)
Inductive nameattr := Missing | NoneValue | StrValue (s : string) | OtherValue.
Inductive nameerr := NotAString | NotAnIdentifier.
Definition requested_name (cls : string) (arg : option string) (self_name : nameattr) : nameerr + string :=
  let check (s : string) := if valid_identifier s then inr s else inl NotAnIdentifier in
  match arg with
  | Some s => check s
  | None => match self_name with
            | StrValue s => check s
            | OtherValue => inl NotAString
            | Missing | NoneValue => check (camel_to_snake cls)
            end
  end.
(** The base constructor run twice for one module, the second time without a name: [self.name] is then what the first run set, the last
    part of the module's name (module.py:496-497), so the second request is for the module's own name. *)
Definition init_twice (sc : scope) (full : string) : scope * (string + string) :=
  match number_name sc full with (sc', inr q) => number_name sc' q | r => r end.
