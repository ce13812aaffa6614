(* Model of the two goroutines that read a locale definition: the lexer, started by NewLexer
   (pkg/locale/localelex.go:544-552, go-lexer's Start), and the parser (yyParse, pkg/locale/y.go:668-887, with
   localelex.go:112-123 Lex), which share the channel of tokens.

   A lexer does nothing that others see but sending tokens, closing the channel and panicking; in between it may compute
   for any time.  So its part is given by what [lex] sends, ends and panics with enough fuel.  The parser's part is [step],
   one visit of the label yystack at a time; a visit that needs a token which is not there is begun again when one has been
   received (nothing is changed before that).  github.com/bbuck/go-lexer makes a buffered channel of half the length of the
   source, at least 1 (from memory); here its capacity is a parameter. *)
From Verif Require Import GoBase LocYaccModel LocaleModel LocLexModel.

Record world := {
  w_sent : nat;                (* the number of tokens the lexer has sent *)
  w_over : bool;               (* the channel is closed *)
  w_chan : list token;         (* the tokens in the channel *)
  w_parser : config;           (* the parser, its input being what it has received and not used *)
  w_end : option verdict       (* how the program has ended, if it has *)
}.

Definition received (t : token) (c : config) : config :=
  {| state := state c; yyval := yyval c; below := below c; above := above c; look := look c; lval := lval c;
     input := input c ++ [t]; defs := defs c |}.
(* how the program ends when Parse does *)
Definition parser_end (o : outcome) (d : definition) : verdict :=
  match o with
  | Returns n => if (n =? 0)%Z then Accepted d else Refused n
  | _ => Crashed
  end.
(* a receive fails (go-lexer's NextToken gives done, Lex -1) when the channel is closed and empty *)
Definition exhausted (w : world) : bool := w_over w && match w_chan w with [] => true | _ => false end.

Section Program.
Variables (cap : nat) (esc : N) (src : bytes).

Inductive move : world -> world -> Prop :=
| send w n t : w_end w = None -> w_over w = false ->
    nth_error (tokens_of (lex n esc src)) (w_sent w) = Some t -> (List.length (w_chan w) < cap)%nat ->
    move w {| w_sent := S (w_sent w); w_over := false; w_chan := w_chan w ++ [t]; w_parser := w_parser w; w_end := None |}
| close w n s : w_end w = None -> w_over w = false -> lex n esc src = Done tt s -> w_sent w = List.length (sent s) ->
    move w {| w_sent := w_sent w; w_over := true; w_chan := w_chan w; w_parser := w_parser w; w_end := None |}
| lexer_panics w n s : w_end w = None -> lex n esc src = Panicked s -> w_sent w = List.length (sent s) ->
    move w {| w_sent := w_sent w; w_over := w_over w; w_chan := w_chan w; w_parser := w_parser w; w_end := Some Crashed |}
| receive w t r : w_end w = None -> step false (w_parser w) = Stop Waits (defs (w_parser w)) -> w_chan w = t :: r ->
    move w {| w_sent := w_sent w; w_over := w_over w; w_chan := r; w_parser := received t (w_parser w); w_end := None |}
| parse w c : w_end w = None -> step (exhausted w) (w_parser w) = Continue c ->
    move w {| w_sent := w_sent w; w_over := w_over w; w_chan := w_chan w; w_parser := c; w_end := None |}
| parser_stops w o d : w_end w = None -> step (exhausted w) (w_parser w) = Stop o d -> o <> Waits ->
    move w {| w_sent := w_sent w; w_over := w_over w; w_chan := w_chan w; w_parser := w_parser w; w_end := Some (parser_end o d) |}.

(* n moves *)
Inductive moves : nat -> world -> world -> Prop :=
| moves_none w : moves 0 w w
| moves_one n w1 w2 w3 : moves n w1 w2 -> move w2 w3 -> moves (S n) w1 w3.
End Program.

(* the program once the lexer is started; d is the value of the package variable def *)
Definition begin (d : definition) : world :=
  {| w_sent := 0; w_over := false; w_chan := []; w_parser := start d []; w_end := None |}.
