(* Specification vocabulary for C06-C11: what a POSIX normal-format diff means.
   Independent of the model of pkg/diff (only Go strings and the decimal digits are shared). *)
From Verif Require Import GoBase.

(* One change command of a normal-format diff:
     l1[,l2] a|d|c r1[,r2]   followed by "< " lines, "---" (for c), "> " lines. *)
Inductive op := OpA | OpD | OpC.
Record hunk := { hop : op; ol1 : N; ol2 : N; nl1 : N; nl2 : N;
                 removed : list bytes; added : list bytes }.

(* maximal run of decimal digits *)
Fixpoint take_digits (b : bytes) : bytes * bytes :=
  match b with
  | c :: r => match digit_of c with
              | Some _ => let '(d, r') := take_digits r in (c :: d, r')
              | None => ([], b)
              end
  | [] => ([], [])
  end.
Definition read_num (b : bytes) : option (N * bytes) :=
  match take_digits b with
  | ([], _) => None
  | (d, r) => match dec_val 0 d with Some n => Some (n, r) | None => None end
  end.
(* "n" means n..n, "n,m" means n..m *)
Definition read_range (b : bytes) : option (N * N * bytes) :=
  match read_num b with
  | None => None
  | Some (n, c :: r) =>
      if Ascii.eqb c "," then
        match read_num r with Some (m, r') => Some (n, m, r') | None => None end
      else Some (n, n, c :: r)
  | Some (n, []) => Some (n, n, [])
  end.
Definition read_op (c : ascii) : option op :=
  if Ascii.eqb c "a" then Some OpA else if Ascii.eqb c "d" then Some OpD
  else if Ascii.eqb c "c" then Some OpC else None.
(* header line: old range, operation, new range *)
Definition read_header (b : bytes) : option (N * N * op * N * N) :=
  match read_range b with
  | Some (l1, l2, c :: r) =>
      match read_op c, read_range r with
      | Some o, Some (r1, r2, []) => Some (l1, l2, o, r1, r2)
      | _, _ => None
      end
  | _ => None
  end.

(* the leading lines that start with [ch] and a space, without these two characters *)
Fixpoint take_marked (ch : ascii) (ls : list bytes) : list bytes * list bytes :=
  match ls with
  | (a :: b :: l) :: r =>
      if Ascii.eqb a ch && Ascii.eqb b " "
      then let '(x, y) := take_marked ch r in (l :: x, y)
      else ([], ls)
  | _ => ([], ls)
  end.

(* Reading the lines of a diff; [fuel] is the number of lines. *)
Fixpoint read_hunks (fuel : nat) (ls : list bytes) : option (list hunk) :=
  match ls, fuel with
  | [], _ => Some []
  | _, O => None
  | h :: r, S f =>
      match read_header h with
      | None => None
      | Some (l1, l2, o, r1, r2) =>
          let '(del, rest1) := take_marked "<" r in
          let rest2 := match o, rest1 with
                       | OpC, sep :: rest => if beqb sep (B "---") then Some rest else None
                       | OpC, [] => None
                       | _, _ => Some rest1
                       end in
          match rest2 with
          | None => None
          | Some rest2 =>
              let '(ins, rest3) := take_marked ">" rest2 in
              match read_hunks f rest3 with
              | None => None
              | Some hs => Some ({| hop := o; ol1 := l1; ol2 := l2; nl1 := r1; nl2 := r2;
                                    removed := del; added := ins |} :: hs)
              end
          end
      end
  end.

(* The hunks a diff text denotes: the empty text is the empty list of commands. *)
Definition read_diff (text : bytes) : option (list hunk) :=
  match text with
  | [] => Some []
  | _ => let ls := split_on nl text in read_hunks (List.length ls) ls
  end.

Definition nlen {A} (l : list A) : N := N.of_nat (List.length l).

(* Is the hunk's numbering right when [o] lines of the old file and [n] lines of the new file
   precede the change?  (POSIX: 'a' names the old line after which to add, 'd' the new line after
   which the lines would have appeared; ranges are 1-based and inclusive.) *)
Definition numbered (h : hunk) (o n : N) : Prop :=
  match hop h with
  | OpA => removed h = [] /\ added h <> [] /\ ol1 h = o /\ ol2 h = o /\
           nl1 h = (n + 1)%N /\ nl2 h = (n + nlen (added h))%N
  | OpD => added h = [] /\ removed h <> [] /\ ol1 h = (o + 1)%N /\
           ol2 h = (o + nlen (removed h))%N /\ nl1 h = n /\ nl2 h = n
  | OpC => removed h <> [] /\ added h <> [] /\
           ol1 h = (o + 1)%N /\ ol2 h = (o + nlen (removed h))%N /\
           nl1 h = (n + 1)%N /\ nl2 h = (n + nlen (added h))%N
  end.

(* [patches hs o n old new]: the commands hs, with o old and n new lines already passed, describe
   a change of the remaining old lines into the remaining new lines: copy common lines up to the
   place the hunk names, replace removed by added, go on. *)
Inductive patches : list hunk -> N -> N -> list bytes -> list bytes -> Prop :=
| patches_nil : forall o n common, patches [] o n common common
| patches_hunk : forall h hs o n common old' new',
    numbered h (o + nlen common)%N (n + nlen common)%N ->
    patches hs (o + nlen common + nlen (removed h))%N (n + nlen common + nlen (added h))%N old' new' ->
    patches (h :: hs) o n (common ++ removed h ++ old') (common ++ added h ++ new').

(* Executable patch: apply commands to old, trusting the numbers (None: does not apply). *)
Fixpoint apply_patch (hs : list hunk) (pos : N) (old : list bytes) : option (list bytes) :=
  match hs with
  | [] => Some old
  | h :: r =>
      let start := match hop h with OpA => ol1 h | _ => ol1 h - 1 end%N in
      if (pos <=? start)%N then
        let k := N.to_nat (start - pos) in
        let rest := skipn k old in
        let d := List.length (removed h) in
        if (k <=? List.length old) && (if list_eq_dec (list_eq_dec ascii_dec) (firstn d rest) (removed h) then true else false)
        then option_map (fun t => firstn k old ++ added h ++ t)
               (apply_patch r (start + nlen (removed h)) (skipn d rest))
        else None
      else None
  end.

(* Swap the roles of the two files. *)
Definition reverse_hunk (h : hunk) : hunk :=
  {| hop := match hop h with OpA => OpD | OpD => OpA | OpC => OpC end;
     ol1 := nl1 h; ol2 := nl2 h; nl1 := ol1 h; nl2 := ol2 h;
     removed := added h; added := removed h |}.

(* ---- operands of the diff command (C11) ---- *)
Inductive item :=
| IFlag (c : ascii)      (* -b -c -e -f -r -u *)
| IContext (x : bytes)   (* -C x *)
| IUnified (x : bytes)   (* -U x *)
| IOperand (x : bytes).

Definition option_words : list bytes :=
  map B ["-b"; "-c"; "-C"; "-e"; "-f"; "-r"; "-u"; "-U"]%string.

Definition item_ok (i : item) : Prop :=
  match i with
  | IFlag c => In c ["b"; "c"; "e"; "f"; "r"; "u"]%char
  | IContext _ => True
  | IUnified x => exists n, atoi x = Some n
  | IOperand x => ~ In x option_words
  end.

Definition item_words (i : item) : list bytes :=
  match i with
  | IFlag c => [["-"%char; c]]
  | IContext x => [B "-C"; x]
  | IUnified x => [B "-U"; x]
  | IOperand x => [x]
  end.

Definition operands (is : list item) : list bytes :=
  flat_map (fun i => match i with IOperand x => [x] | _ => [] end) is.
(* Exactly two non-empty operands; empty ones are only tolerated before the second. *)
Definition two_files (ops : list bytes) (f1 f2 : bytes) : Prop :=
  f1 <> [] /\ f2 <> [] /\ exists j k, ops = repeat [] j ++ f1 :: repeat [] k ++ [f2].

Definition flag_given (c : ascii) (is : list item) : bool :=
  existsb (fun i => match i with IFlag d => Ascii.eqb c d | _ => false end) is.
Definition context_given (is : list item) : bool :=
  existsb (fun i => match i with IContext _ => true | _ => false end) is.
Definition unified_given (is : list item) : bool :=
  existsb (fun i => match i with IUnified _ => true | _ => false end) is.
Definition sets_size (i : item) : bool :=
  match i with IContext _ | IUnified _ => true | _ => false end.

(* No file name at all; exactly one, all other operands being empty. *)
Definition no_file (ops : list bytes) : Prop := exists j, ops = repeat [] j.
Definition one_file (ops : list bytes) : Prop :=
  exists j k f, f <> [] /\ ops = repeat [] j ++ f :: repeat [] k.
(* not yet more than two *)
Definition at_most_two (ops : list bytes) : Prop :=
  no_file ops \/ one_file ops \/ exists f1 f2, two_files ops f1 f2.

(* The mistakes of a command line, read from the left, and the text reported for each.
   [ae x] is what strconv.Atoi says about x. *)
Inductive mistake (ae : bytes -> bytes) : list bytes -> bytes -> Prop :=
| number_missing : forall is o, Forall item_ok is -> at_most_two (operands is) ->
    o = B "-C" \/ o = B "-U" ->
    mistake ae (flat_map item_words is ++ [o])
      (B "ah heck I though that a number was gonna follow " ++ o)
| number_bad : forall is x rest, Forall item_ok is -> at_most_two (operands is) -> atoi x = None ->
    mistake ae (flat_map item_words is ++ B "-U" :: x :: rest) (ae x)
| third_file : forall is f1 f2 x rest, Forall item_ok is -> two_files (operands is) f1 f2 ->
    item_ok (IOperand x) ->
    mistake ae (flat_map item_words is ++ x :: rest)
      (B "aww jeez you can only compare two files, " ++ x ++ B " is the third")
| files_missing : forall is, Forall item_ok is -> no_file (operands is) ->
    mistake ae (flat_map item_words is) (B "oh no you forgot to give any files")
| second_missing : forall is, Forall item_ok is -> one_file (operands is) ->
    mistake ae (flat_map item_words is) (B "oh no you forgot to give the second file").
