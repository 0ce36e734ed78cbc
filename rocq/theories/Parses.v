(** The calls of ParserElement._parse that reading a schema makes: the parser of
    Grammar.v with a record of what it does.  pyparsing keeps no results of earlier
    calls unless enablePackrat was called, and the library does not call it. *)

From Coq Require Import List String Ascii Bool Arith.
Import ListNotations.
From Verif Require Import PyBase Generator Grammar.

Open Scope string_scope.
Open Scope list_scope.
Open Scope nat_scope.

(** A call: with actions or without, the expression, the text from the location
    on. *)
Definition parse_call : Type := (bool * pexp * string)%type.

Section Loops.
Variable run : bool -> pexp -> string -> outcome (list tok).
Variable sub : bool -> pexp -> string -> list parse_call.

(** And.parseImpl; compare Grammar.run_and. *)
Fixpoint sub_and (act : bool) (l : list pexp) (s : string) : list parse_call :=
  match l with
  | [] => []
  | e :: r => sub act e s ++ match run act e s with Match s1 _ => sub_and act r s1 | _ => [] end
  end.

(** Or.parseImpl: try_parse of every alternative (Grammar.tries), then the longest
    ones again (Grammar.longest). *)
Fixpoint sub_tries (l : list pexp) (s : string) : list parse_call :=
  match l with
  | [] => []
  | e :: r => sub false e s ++ match run false e s with Raise _ => [] | _ => sub_tries r s end
  end.
Fixpoint sub_longest (l : list (nat * pexp)) (s : string) (best : option (string * list tok)) : list parse_call :=
  match l with
  | [] => []
  | (n, e) :: r =>
    if match best with Some (b, _) => String.length b <=? n | None => false end
    then []
    else sub true e s ++
         match run true e s with
         | Match s1 a => if String.length s1 <=? n then []
                         else sub_longest r s (match best with
                                               | Some (b, _) => if String.length s1 <? String.length b
                                                                then Some (s1, a) else best
                                               | None => Some (s1, a)
                                               end)
         | NoMatch => sub_longest r s best
         | Raise _ => []
         end
  end.
Definition sub_or (act : bool) (l : list pexp) (s : string) : list parse_call :=
  sub_tries l s ++
  match tries run l s with
  | Err _ => []
  | Ok m => match sort_matches m with
            | [] => []
            | (n, e) :: r => if act then sub_longest ((n, e) :: r) s None else sub false e s
            end
  end.

(** _MultipleMatch.parseImpl behind the first match; compare Grammar.more. *)
Fixpoint sub_more (n : nat) (act : bool) (e : pexp) (s : string) : list parse_call :=
  match n with
  | O => []
  | S n' => sub act e s ++ match run act e s with Match r _ => sub_more n' act e r | _ => [] end
  end.

(** ParserElement._parse; compare Grammar.step.  The calls inside nestedExpr, and
    those of the parser the action of a constraint starts on the text it has put
    together (parse_actions.py 179-189), are left out. *)
Definition sub_step (n : nat) (act : bool) (e : pexp) (s : string) : list parse_call :=
  match e with
  | PTerm _ | PEmpty | PNest => []
  | PSup e | POpt e | PGroup e | PAct _ e => sub act e s
  | PAnd l => sub_and act l s
  | POr l => sub_or act l s
  | PMany e | PMore e => sub act e s ++ match run act e s with Match r _ => sub_more n act e r | _ => [] end
  | PRule r => sub act (body r) s
  end.
End Loops.

Fixpoint parses (n : nat) (act : bool) (e : pexp) (s : string) {struct n} : list parse_call :=
  match n with
  | O => []
  | S n' => (act, e, s) :: sub_step (run n') (parses n') n' act e (skip s)
  end.

(** The calls of parse_asn1_schema (asn1PERser/__init__.py 12-14). *)
Definition schema_parses (n : nat) (s : string) : list parse_call :=
  parses n true g_module (expandtabs 0 (of_codes (remove_comments (to_codes s)))).
