(* Specification vocabulary for C147: reading a list of assignments as the shell does. *)
From Verif Require Import GoBase LocaleSpec.

(* Characters with no meaning to the shell outside quotes.  Not here, though sometimes harmless: the tilde. *)
Definition plain (c : ascii) : Prop :=
  ~ In c ["|"; "&"; ";"; "<"; ">"; "("; ")"; "$"; "`"; "\"; "034"; "'"; " "; "~"]%char /\ c <> tab /\ c <> nl.
(* Characters that stand for themselves between double quotes. *)
Definition inside (c : ascii) : Prop := ~ In c ["$"; "`"; "\"; "034"]%char.
(* Characters that end a word. *)
Definition ends_word (c : ascii) : Prop := In c ["|"; "&"; ";"; "<"; ">"; "("; ")"; " "]%char \/ c = tab.

(* A word and its value.  No expansions: a word with a dollar sign, a backquote or a tilde outside single quotes has no value here. *)
Inductive word : bytes -> bytes -> Prop :=
| word_end : word [] []
| word_plain c t v : plain c -> word t v -> word (c :: t) (c :: v)
| word_escaped c t v : c <> nl -> word t v -> word ("\"%char :: c :: t) (c :: v)
| word_single s t v : ~ In "'"%char s -> word t v -> word (B "'" ++ s ++ B "'" ++ t) (s ++ v)
| word_double s t v : Forall inside s -> word t v -> word (quoted s ++ t) (s ++ v).

(* Lines that are assignments, and what they assign, in order. *)
Definition name (s : bytes) : Prop := Forall (fun c => plain c /\ c <> "="%char) s.
Inductive script : bytes -> list (bytes * bytes) -> Prop :=
| script_end : script [] []
| script_line var t v rest l : name var -> word t v -> script rest l ->
    script (assignment var t ++ rest) ((var, v) :: l).

(* The variables after the assignments. *)
Fixpoint after (l : list (bytes * bytes)) (env : bytes -> bytes) : bytes -> bytes :=
  match l with
  | [] => env
  | (var, v) :: r => after r (fun x => if beqb x var then v else env x)
  end.

(* The locale in effect for a category (POSIX, 8.2). *)
Inductive in_effect (env : bytes -> bytes) (category : bytes) : bytes -> Prop :=
| eff_all : env (B "LC_ALL") <> [] -> in_effect env category (env (B "LC_ALL"))
| eff_own : env (B "LC_ALL") = [] -> env category <> [] -> in_effect env category (env category)
| eff_lang : env (B "LC_ALL") = [] -> env category = [] -> in_effect env category (env (B "LANG")).

(* The values that the report prints without quotes are plain, and LANG is harmless between quotes. *)
Definition readable (env : bytes -> bytes) : Prop :=
  Forall inside (env (B "LANG")) /\ Forall plain (env (B "LC_ALL")) /\
  (env (B "LC_ALL") = [] -> forall c, In c categories -> Forall plain (env c)).
Definition no_percent (env : bytes -> bytes) : Prop := forall v, In v variables -> ~ In "%"%char (env v).
