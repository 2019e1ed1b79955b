(** Model of what [unparse] does when the unparser fails, and of [unparse_with_fallbacks], mcpyrate/unparser.py:1171-1220. *)
From Verif Require Import Base UnparseModel DumpModel.
Open Scope string_scope.

Section Fallback.
  (** [V]: Python values. [unparser]: what [Unparser] writes with the given settings, or the exception that it raises (1183-1187, before [strip]); the other models
      of the unparser are instances. [dump] with [multiline=True] (1190), [repr(tree)] (1195), and [type(tree)], formatted (1197). [str_err], [type_err]: [str(err)] and
      [type(err)], formatted, for an exception of any class but [UnparserError] (1219); they may call user code. [isa]: [isinstance] for exceptions. *)
  Variable V : Type.
  Variable unparser dump repr type_of : V -> res string.
  Variable str_err type_err : exn -> res string.
  Variable isa : exn -> string -> bool.

  (** unparser.py:39-40: a SyntaxError with one argument, the message, which is also its [str]. *)
  Definition unparser_err (msg : string) : exn := mkExn "UnparserError" [msg].
  Definition message (e : exn) : string := match e_args e with [m] => m | _ => "" end.
  (** unparser.py:1191, 1196: a blank, or a line end before a text of several lines. *)
  Definition sep (text : string) : string := if existsb (Ascii.eqb (ascii_of_nat 10)) (list_ascii_of_string text) then nl else " ".
  Definition dump_header : string := "unparse failed, likely invalid AST (or a new AST node type from a recent Python); here's an AST dump instead:".
  Definition repr_header : string := "unparse failed, fallback AST dump failed, likely not an AST; here's the type and repr instead:".

  (** unparser.py:1171-1198. *)
  Definition unparse_or_dump (t : V) : res string :=
    match unparser t with
    | Ok s => Ok (strip s)
    | Err e =>
        if isa e "UnparserError" then
          match dump t with
          | Ok d => Err (unparser_err (dump_header ++ sep d ++ d))
          | Err e1 =>
              if isa e1 "TypeError" then
                match repr t with
                | Err e2 => Err e2
                | Ok r => match type_of t with Err e2 => Err e2 | Ok ty => Err (unparser_err (repr_header ++ sep r ++ ty ++ sep r ++ r)) end
                end
              else Err e1
          end
        else Err e
    end.
  (** unparser.py:1201-1220. *)
  Definition unparse_with_fallbacks (t : V) : res string :=
    match unparse_or_dump t with
    | Ok s => Ok s
    | Err e =>
        if isa e "UnparserError" then Ok (message e)
        else if isa e "Exception" then
          match type_err e with
          | Err e1 => Err e1
          | Ok ty => match str_err e with Err e1 => Err e1 | Ok m => Ok ("Internal error in unparser: " ++ ty ++ ": " ++ m) end
          end
        else Err e
    end.
End Fallback.
