(** Model of expand, compile, singlephase_expand and run (mcpyrate/compiler.py:33-438), and of ismultiphase (multiphase.py:229-247).

    Simplifications: a Module node stands for its body ([type_ignores] is left out; dialects and macros are taken to return Module nodes for Module nodes, so the
    assertion in compiler.py:275 holds). [optimize] is left out: it is passed on unchanged. *)
From Verif Require Import Base AstLib UtilsModel FixLocModel MarkersModel ExpanderModel Dict ImportsModel ModulesModel PhaseModel DialectModel StatsModel ReplModel.

(** What is given as [source]. [SNode]: an AST node that is no Module. *)
Inductive source (code : Type) : Type := SText (s : string) | SBytes (b : string) | SModule (body : list ltree) | SList (l : list ltree) | SNode (t : ltree) | SCode (c : code) | SOther.
Arguments SText {code}. Arguments SBytes {code}. Arguments SModule {code}. Arguments SList {code}. Arguments SNode {code}. Arguments SCode {code}. Arguments SOther {code}.
(** What is given as [module]. *)
Inductive modarg : Type := MNone | MMod (m : nat) | MName (x : string) | MOther.

(** multiphase.py:229-247, ismultiphase. *)
Fixpoint ismultiphase (body : list ltree) : res bool :=
  match body with
  | [] => Ok false
  | t :: r =>
      match import_named "macros" t with
      | Err e => Err e
      | Ok None => ismultiphase r
      | Ok (Some i) =>
          if match i_module i with Some m => String.eqb m "mcpyrate.multiphase" | None => false end && Nat.eqb (i_level i) 0 && existsb (fun p => String.eqb (fst p) "phase") (tl (i_names i))
          then Ok true
          else ismultiphase r
      end
  end.

Section Compile.
  Context {U Ob In_ code : Type}.
  Notation st := (mst U).
  (** create_module (ModulesModel.v). *)
  Variables (isidentifier : string -> bool) (truthy : nat -> bool) (gen : nat -> string).
  (** importlib.util.decode_source; ast.parse; the built-in compile (with a file name); isinstance(x, ast.stmt); the unparser. *)
  Variable decode : string -> res string.
  Variable parse : string -> res (list ltree).
  Variable pycompile : list ltree -> string -> res code.
  Variable isstmt : ltree -> bool.
  Variable unparse : source code -> res string.
  (** The search for dialect-imports in text, instantiating dialects, and their source transformers (DialectModel.v). *)
  Variable parse_import : list ascii -> res imp.
  Variable load : imp -> st -> res (option string * list (string * Ob)) * st.
  Variable is_dialect : Ob -> bool.
  Variable instantiate : Ob -> st -> res In_ * st.
  Variable transform_text : In_ -> option (list ascii -> st -> res (tresult (list ascii)) * st).
  (** transform_ast and postprocess_ast (DialectModel.v), find_macros and expand_macros, for a file and (if given) a module name. *)
  Variable transform_ast : string -> list ltree -> st -> res (list ltree * list In_) * st.
  Context {B : Type}.
  Variable find_macros : string -> option string -> list ltree -> st -> res (B * list ltree) * st.
  Variable expand_macros : string -> B -> list ltree -> st -> res (list ltree) * st.
  Variable postprocess : string -> list In_ -> list ltree -> st -> res (list ltree) * st.
  (** isinstance(tree, ASTMarker), by class. *)
  Variable ismarker : string -> bool.
  (** The file and name of a module; setting its docstring; exec in its namespace. [run_phase]: [run], called for a higher phase. *)
  Variables (file_of name_of : nat -> st -> option string).
  Variable set_doc : nat -> ltree -> st -> st.
  Variable exec : code -> nat -> st -> res unit * st.
  Variable run_phase : list ltree -> nat -> st -> res unit * st.

  Definition bind {A C} (r : res A * st) (f : A -> st -> res C * st) : res C * st := match r with (Ok x, s) => f x s | (Err e, s) => (Err e, s) end.
  (** compiler.py:281-312, singlephase_expand, with a dialect expander. *)
  Definition singlephase_expand (filename : string) (self : option string) (body : list ltree) (s : st) : res (list ltree) * st :=
    bind (transform_ast filename body s) (fun '(body, ds) s =>
    bind (find_macros filename self body s) (fun '(b, body) s =>
    bind (expand_macros filename b body s) (fun body s =>
    bind (postprocess filename ds body s) (fun body s =>
    match check_no_markers_remaining ismarker (Nd noloc "Module" [("body"%string, Ls body)]) with Ok _ => (Ok body, s) | Err e => (Err e, s) end)))).

  (** dialects.py:192-201, transform_source, with an expander that has not seen any dialect-import yet. [None]: not returned after [n] rounds. *)
  Definition transform_source (n : nat) (text : string) (s : st) : option (res string * st) :=
    match transform_loop is_dialect (fun o (w : st * list (list ascii)) => let (r, s') := instantiate o (fst w) in (r, (s', snd w)))
            (fun d => match transform_text d with None => None | Some f => Some (fun c (w : st * list (list ascii)) => let (r, s') := f c (fst w) in (r, (s', snd w))) end)
            (find_source parse_import (fun i (w : st * list (list ascii)) => let (r, s') := load i (fst w) in (r, (s', snd w))) snd (fun x (w : st * list (list ascii)) => (fst w, x :: snd w)))
            n (list_ascii_of_string text) [] (s, []) with
    | None => None
    | Some (Ok (t, _), w) => Some (Ok (string_of_list_ascii t), fst w)
    | Some (Err e, w) => Some (Err e, fst w)
    end.

  (** compiler.py:173-181: the AST transforms. An empty module name is false as a condition. *)
  Definition expand_tree (filename : string) (self : option string) (body : list ltree) (s : st) : res (list ltree) * st :=
    match ismultiphase body with
    | Err e => (Err e, s)
    | Ok false => singlephase_expand filename self body s
    | Ok true =>
        match self with
        | Some x => if String.eqb x "" then (Err (mkExn "ValueError" []), s)
                    else multiphase_expand isidentifier truthy gen run_phase (singlephase_expand filename self) body x s
        | None => (Err (mkExn "ValueError" []), s)
        end
    end.
  (** compiler.py:33-181, expand. *)
  Definition expand (n : nat) (src : source code) (filename : string) (self : option string) (s : st) : option (res (list ltree) * st) :=
    let text t :=
      match transform_source n t s with
      | None => None
      | Some (Err e, s1) => Some (Err e, s1)
      | Some (Ok t1, s1) => match parse t1 with Err _ => Some (Err (mkExn "ImportError" []), s1) | Ok body => Some (expand_tree filename self body s1) end
      end in
    match src with
    | SText t => text t
    | SBytes b => match decode b with Ok t => text t | Err e => Some (Err e, s) end
    | SModule body | SList body => Some (if forallb isstmt body then expand_tree filename self body s else (Err type_error, s))
    | SNode _ | SCode _ | SOther => Some (Err type_error, s)
    end.

  (** compiler.py:227-278, _compile: the code and the docstring. *)
  Definition compile_ (n : nat) (src : source code) (filename : string) (self : option string) (s : st) : option (res (code * ltree) * st) :=
    match (if ends_with ".py" filename then Ok src
           else match src with
                | SModule _ | SList _ | SNode _ => match unparse src with Ok t => Ok (SText t) | Err e => Err e end
                | _ => Ok src
                end) with
    | Err e => Some (Err e, s)
    | Ok src1 =>
        match expand n src1 filename self s with
        | None => None
        | Some (Err e, s1) => Some (Err e, s1)
        | Some (Ok body, s1) =>
            match getdocstring (Ls body) with
            | Err e => Some (Err e, s1)
            | Ok doc => match pycompile body filename with Ok c => Some (Ok (c, doc), s1) | Err e => Some (Err e, s1) end
            end
        end
    end.
  (** compiler.py:186-225, compile. *)
  Definition compile (n : nat) (src : source code) (filename : string) (self : option string) (s : st) : option (res code * st) :=
    match compile_ n src filename self s with
    | None => None
    | Some (Err e, s1) => Some (Err e, s1)
    | Some (Ok (c, _), s1) => Some (Ok c, s1)
    end.

  (** compiler.py:317-438, run. What is in sys.modules need not have the attributes of a module. *)
  Definition run (n : nat) (src : source code) (marg : modarg) (s : st) : option (res nat * st) :=
    let (r, s1) := match marg with
                   | MOther => (Err type_error, s)
                   | MNone => create_module isidentifier truthy gen ArgNone ArgNone true s
                   | MMod m => (Ok m, s)
                   | MName x => match sget x (m_sys s) with Some m => (Ok m, s) | None => (Err (mkExn "ModuleNotFoundError" []), s) end
                   end in
    match r with
    | Err e => Some (Err e, s1)
    | Ok m =>
        match file_of m s1, name_of m s1 with
        | Some f, Some x =>
            let go c d s2 := let (r, s3) := exec c m (set_doc m d s2) in Some (match r with Ok _ => Ok m | Err e => Err e end, s3) in
            match src with
            | SCode c => go c NoneT s1
            | _ => match compile_ n src f (Some x) s1 with
                   | None => None
                   | Some (Err e, s2) => Some (Err e, s2)
                   | Some (Ok (c, d), s2) => go c d s2
                   end
            end
        | _, _ => Some (Err (mkExn "AttributeError" []), s1)
        end
    end.
End Compile.
