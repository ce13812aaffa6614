(* Specification vocabulary for C59, C60, C83, C84, C86 and C88: what a run of ed may write. *)
From Verif Require Import GoBase GoFacts NumFacts PieceTableModel EdModel EdSpec EdPegModel EdPegSpec EdLoopModel.

(* the errors reported before the first command, and each command with the errors reported after it and
   before the next one *)
Fixpoint segments (evs : list revent) : list bytes * list (command * list bytes) :=
  match evs with
  | [] => ([], [])
  | RError m :: r => let '(e, l) := segments r in (m :: e, l)
  | RPrint _ :: r => segments r
  | RSend c :: r => let '(e, l) := segments r in ([], (c, e) :: l)
  end.
Definition first_errors (evs : list revent) : list bytes := fst (segments evs).
Definition commands (evs : list revent) : list command := map fst (snd (segments evs)).
Definition errors_after (evs : list revent) : list (list bytes) := map snd (snd (segments evs)).

(* syntax errors and replies, without the debugging text *)
Definition visible (l : list output) : list output :=
  filter (fun x => match x with ODebug _ => false | _ => true end) l.
Definition debugging (l : list output) : list output :=
  filter (fun x => match x with ODebug _ => true | _ => false end) l.

(* [placed errs replies out]: the replies in order, and the errors after each command (one list per
   command) either before or after the reply to that command, in order.  If there is no reply to a command
   (it was q, or it ended the program, or never ended) the output stops somewhere in the errors after it. *)
Inductive placed : list (list bytes) -> list bytes -> list output -> Prop :=
| placed_end : placed [] [] []
| placed_reply p s errs r replies out : placed errs replies out ->
    placed ((p ++ s) :: errs) (r :: replies) (map OError p ++ [OReply r] ++ map OError s ++ out)
| placed_stop p s errs : placed ((p ++ s) :: errs) [] (map OError p).

(* neither goroutine can go on *)
Definition stopped compile capacity errtext (o : nat -> faults) (s : loop) : Prop :=
  forall s', ~ step compile capacity errtext o s s'.
(* how the program has ended, given how the commands end *)
Definition ended (r : out (files * itor)) (s : loop) : Prop :=
  match r with
  | Val (fs, ed) => l_status s = Finished /\ l_fs s = fs /\ l_ed s = ed
  | Crashes => l_status s = Crashed
  | Hangs => l_status s = Running /\ l_cons s = Stuck
  end.

(* the replies among the output *)
Definition replies (l : list output) : list bytes :=
  flat_map (fun x => match x with OReply r => [r] | _ => [] end) l.

(* the lines typed for a command of the abstract line editor *)
Definition script (c : acmd) : list bytes :=
  match c with
  | Append n t => [itoa n ++ B "a"] ++ typed t ++ [B "."]
  | Insert_ n t => [itoa n ++ B "i"] ++ typed t ++ [B "."]
  | Change m n t => [itoa m ++ B "," ++ itoa n ++ B "c"] ++ typed t ++ [B "."]
  | Delete_ m n => [itoa m ++ B "," ++ itoa n ++ B "d"]
  | Print_ m n => [itoa m ++ B "," ++ itoa n ++ B "p"]
  | Number_ m n => [itoa m ++ B "," ++ itoa n ++ B "n"]
  | LineNo n => [itoa n ++ B "="]
  end.
(* text that can be typed, with every character a single byte: ordinary lines of which no one is ".", and
   none but the first begins with a dot *)
Definition typable (t : bytes) : Prop :=
  Forall ed_line (typed t) /\ typed_lines (typed t) /\ dotless (typed t) /\ List.length (runes_of t) = List.length t.
(* the same, of any characters *)
Definition typed_text (t : bytes) : Prop := Forall ed_line (typed t) /\ typed_lines (typed t) /\ dotless (typed t).
Definition takes_text (c : acmd) : Prop := match c with Append _ _ | Insert_ _ _ | Change _ _ _ => True | _ => False end.
Definition session_typed (h : list acmd) : Prop := forall c, In c h -> takes_text c -> typed_text (text_of c).
(* the first n bytes of a text of n characters *)
Definition cut (t : bytes) : bytes := firstn (List.length (runes_of t)) t.
Definition cut_text (c : acmd) : acmd :=
  match c with Append n t => Append n (cut t) | Insert_ n t => Insert_ n (cut t) | Change m n t => Change m n (cut t) | _ => c end.
Definition session_ok (h : list acmd) : Prop :=
  forall c, In c h -> match c with Append _ t | Insert_ _ t | Change _ _ t => typable t | _ => True end.
(* what is typed *)
Definition session (h : list acmd) : bytes := unlines (concat (map script h)).

(* the first line of a command that takes text: at most two addresses of digits, dots and dollars around an
   optional comma, one of a, i and c, and white space anywhere between them *)
Definition white_space (c : ascii) : Prop := In c [" "%char; tab; nl; cr; "012"%char].  (* "012" is form feed *)
Definition address_char (c : ascii) : Prop := is_dec_digit c \/ c = "."%char \/ c = "$"%char.
Definition starts_text (l : bytes) : Prop :=
  let space s := Forall white_space s in
  let addr s := Forall address_char s in
  exists s1 a1 s2 c s3 a2 s4 x s5,
    space s1 /\ addr a1 /\ space s2 /\ (c = [] \/ c = B ",") /\ space s3 /\ addr a2 /\ space s4 /\ text_letter x /\ space s5 /\
    l = s1 ++ a1 ++ s2 ++ c ++ s3 ++ a2 ++ s4 ++ [x] ++ s5.
(* the lines in groups: single lines, and lines that start text with all lines up to the next "." or, for
   want of one, to the end *)
Inductive grouped : list bytes -> list (list bytes) -> Prop :=
| grouped_nil : grouped [] []
| grouped_line l r g : ~ starts_text l -> grouped r g -> grouped (l :: r) ([l] :: g)
| grouped_text l t r g : starts_text l -> (forall x, In x t -> x <> B ".") -> grouped r g ->
    grouped (l :: t ++ [B "."] ++ r) ((l :: t ++ [B "."]) :: g)
| grouped_open l t : starts_text l -> (forall x, In x t -> x <> B ".") -> grouped (l :: t) [l :: t].

(* ---- debugging text ---- *)
(* the commands and the kinds of address in the order of their declarations (command.go:17-46, address.go:10-17) *)
Definition declared_commands : list cmdType :=
  [ctnull; ctappend; ctchange; ctdelete; ctedit; cteditForce; ctfilename; ctglobal; ctinteractive;
   cthelp; cthelpMode; ctinsert; ctjoin; ctmark; ctlist; ctmove; ctnumber; ctprint; ctprompt;
   ctquit; ctquitForce; ctread; ctsubstitute; ctcopy; ctundo; ctglobalInverse; ctinteractiveInverse;
   ctwrite; ctlineNumber; ctshell].
Definition declared_addresses : list addressType := [lNull; lCurrent; lLast; lNum; lOffset; lRegex; lRegexReverse; lMark].
(* Go's text of an address and of a command: the fields in braces, the types by their positions *)
Definition go_address (a : address) (s : bytes) : Prop :=
  exists i, nth_error declared_addresses i = Some (a_typ a) /\
    s = B "{" ++ itoa (Z.of_nat i) ++ B " " ++ a_text a ++ B " " ++ itoa (a_offset a) ++ B "}".
Definition go_command (c : command) (s : bytes) : Prop :=
  exists i a b d, nth_error declared_commands i = Some (c_typ c) /\ go_address (c_start c) a /\ go_address (c_end c) b /\ go_address (c_dest c) d /\
    s = B "{" ++ itoa (Z.of_nat i) ++ B " " ++ a ++ B " " ++ b ++ B " " ++ d ++ B " " ++ c_text c ++ B " [" ++ join (B " ") (c_params c) ++ B "]}".
