(** Definition of module classes (parametricmatrixmodels/modules/basemodule.py
    L36-46, L80-148).

    Simplifications: every class has one base class (true of all module classes
    in the repository); a class body has functions and perhaps [__version__];
    properties, class methods and other attributes are left out (they are not
    callable, so L121 skips them); classes are not changed after they are made. *)
From Verif Require Import Base.
Local Open Scope string_scope. Local Open Scope list_scope.

(** [inspect.Parameter]: kind, name, and whether there is a default. *)
Inductive kind := PositionalOnly | PositionalOrKeyword | VarPositional | KeywordOnly | VarKeyword.
Record param := mk_param { p_name : string; p_kind : kind; p_default : bool }.
Definition signature := list param.

(** A function in a class body: whether it is marked by [abstractmethod], its
    signature, and whether it is checked by jaxtyping and beartype when called
    ([__jaxtyped__]). *)
Record method := mk_method { abstract : bool; sig : signature; typed : bool }.
(** A class body. [__version__] is a string, or something else ([None] inside). *)
Record body := mk_body { methods : list (string * method); version : option (option string) }.
(** A class: its body and those of its base classes, nearest first. The last
    one is [BaseModule]. *)
Definition cls := list body.

Fixpoint find (name : string) (d : list (string * method)) : option method :=
  match d with
  | [] => None
  | (k, m) :: d' => if String.eqb name k then Some m else find name d'
  end.
(** [getattr(cls, name)]. *)
Fixpoint lookup (name : string) (c : cls) : option method :=
  match c with
  | [] => None
  | b :: c' => match find name (methods b) with Some m => Some m | None => lookup name c' end
  end.
(** [cls.__version__]; None if there is none. *)
Fixpoint lookup_version (c : cls) : option (option string) :=
  match c with
  | [] => None
  | b :: c' => match version b with Some v => Some v | None => lookup_version c' end
  end.

Definition still_abstract (c : cls) (name : string) : bool :=
  match lookup name c with Some m => abstract m | None => false end.
(** [cls.__abstractmethods__] as [ABCMeta] computes it. *)
Fixpoint abstractmethods (c : cls) : list string :=
  match c with
  | [] => []
  | b :: c' => map fst (filter (fun km => abstract (snd km)) (methods b)) ++ filter (still_abstract c) (abstractmethods c')
  end.
(** [inspect.isabstract] of the standard library, called before [ABCMeta] is
    done: it goes through the body and through the abstract methods of the base. *)
Definition isabstract (c : cls) : bool :=
  match c with
  | [] => false
  | b :: c' => existsb (fun km => abstract (snd km)) (methods b) || existsb (still_abstract c) (abstractmethods c')
  end.

(** L120-124: every function of the body is wrapped. *)
Definition wrap (m : method) : method := mk_method (abstract m) (sig m) true.
Definition wrap_body (b : body) : body := mk_body (map (fun km => (fst km, wrap (snd km))) (methods b)) (version b).

(** L142-156: a parameter the check complains about. *)
Definition required (p : param) : bool :=
  if String.eqb (p_name p) "self" then false
  else negb (p_default p) && match p_kind p with VarPositional | VarKeyword => false | _ => true end.

(** [class C(base): body], with [__init_subclass__], L101-164. [is_version] is
    whether [packaging.version.Version] accepts a string (anything else than a
    string is a TypeError there). *)
Definition define (is_version : string -> bool) (b : body) (base : cls) : result cls :=
  let c := b :: base in
  if isabstract c then Ok c                                            (* L117-118 *)
  else
    let c := wrap_body b :: base in
    match lookup_version c with
    | None => Err NotImplementedError                                  (* L127-130 *)
    | Some None => Err TypeError
    | Some (Some v) =>
        if is_version v then
          match lookup "__init__" c with
          | Some m => if existsb required (sig m) then Err TypeError else Ok c     (* L142-164 *)
          | None => Ok c                                               (* does not happen: BaseModule has one *)
          end
        else Err ValueError                                            (* L132-139 *)
    end.
