(* Model of pkg/locale: locale.go, time.go, and the preprocessing in localelex.go; and cmd/locale. *)
From Verif Require Import GoBase.

(* ---- pkg/locale/locale.go ---- *)
(* locale.go:8-17 *)
Record locale := { l_lang : bytes; l_collate : bytes; l_ctype : bytes; l_messages : bytes;
                   l_monetary : bytes; l_numeric : bytes; l_time : bytes; l_all : bytes }.
Definition dq : bytes := ["034"%char].
(* locale.go:29-37 *)
Definition getVal (l : locale) (val : bytes) : bytes :=
  if negb (beqb (l_all l) []) then dq ++ l_all l ++ dq
  else if negb (beqb val []) then val
  else dq ++ l_lang l ++ dq.
(* locale.go:39-57 *)
Definition locale_string (l : locale) : bytes :=
  let settings := [(B "LC_COLLATE", l_collate l); (B "LC_CTYPE", l_ctype l); (B "LC_MESSAGES", l_messages l);
                   (B "LC_MONETARY", l_monetary l); (B "LC_NUMERIC", l_numeric l); (B "LC_TIME", l_time l)] in
  (B "LANG=" ++ dq ++ l_lang l ++ dq ++ [nl])
  ++ flat_map (fun '(name, val) => name ++ B "=" ++ getVal l val ++ [nl]) settings
  ++ (B "LC_ALL=" ++ l_all l ++ [nl]).
(* locale.go:60-71; os.Getenv: an unset variable is the empty string *)
Definition FromEnv (getenv : bytes -> bytes) : locale :=
  {| l_lang := getenv (B "LANG"); l_collate := getenv (B "LC_COLLATE"); l_ctype := getenv (B "LC_CTYPE");
     l_messages := getenv (B "LC_MESSAGES"); l_monetary := getenv (B "LC_MONETARY");
     l_numeric := getenv (B "LC_NUMERIC"); l_time := getenv (B "LC_TIME"); l_all := getenv (B "LC_ALL") |}.

(* fmt.Printf(format) without operands.  Simplified: a directive with '*' or '[' gives None (not modelled). *)
Definition is_flag_char (c : ascii) : bool :=
  existsb (Ascii.eqb c) ["#"%char; "0"%char; "+"%char; "-"%char; " "%char].
Definition is_digit_char (c : ascii) : bool := match digit_of c with Some _ => true | None => false end.
Fixpoint drop_while (p : ascii -> bool) (b : bytes) : bytes :=
  match b with c :: r => if p c then drop_while p r else b | [] => [] end.
Fixpoint printf_noargs (fuel : nat) (b : bytes) : option bytes :=
  match fuel, b with
  | _, [] => Some []
  | O, _ => None
  | S f, c :: r =>
      if Ascii.eqb c "%" then
        let r1 := drop_while is_digit_char (drop_while is_flag_char r) in
        let r2 := match r1 with
                  | d :: r' => if Ascii.eqb d "." then drop_while is_digit_char r' else r1
                  | [] => []
                  end in
        match r2 with
        | [] => Some (B "%!(NOVERB)")
        | v :: _ =>
            if existsb (Ascii.eqb v) ["*"%char; "["%char] then None
            else let '(_, size) := decode_rune r2 in
                 let out := if Ascii.eqb v "%" then B "%"
                            else B "%!" ++ (let '(rn, _) := decode_rune r2 in encode_rune rn) ++ B "(MISSING)" in
                 match printf_noargs f (skipn size r2) with Some t => Some (out ++ t) | None => None end
        end
      else match printf_noargs f r with Some t => Some (c :: t) | None => None end
  end.
(* cmd/locale/main.go:6-8: the report is used as the format *)
Definition locale_cmd (getenv : bytes -> bytes) : option bytes :=
  let s := locale_string (FromEnv getenv) in printf_noargs (List.length s) s.

(* ---- pkg/locale/time.go ---- *)
(* time.go:32-39 *)
Record era := { reverse : bool; offset : Z; startDate : bytes; endDate : bytes; name : bytes; format : bytes }.
Definition empty_era : era :=
  {| reverse := false; offset := 0; startDate := []; endDate := []; name := []; format := [] |}.
(* time.go:49-84; Err carries the message *)
Definition NewEra (input : bytes) : res era :=
  match split_on ":"%char input with
  | p0 :: p1 :: p2 :: p3 :: p4 :: p5 :: rest =>
      let after (rev : bool) :=
        match atoi p1 with
        | None => Ok empty_era
        | Some off => Ok {| reverse := rev; offset := off; startDate := p2; endDate := p3; name := p4;
                            format := join (B ":") (p5 :: rest) |}
        end in
      if beqb p0 (B "+") then after false
      else if beqb p0 (B "-") then after true
      else Err (B "direction '" ++ p0 ++ B "' must be '+' or '-'")
  | _ => Err (B "not enough fields in input: " ++ input)
  end.

(* ---- pkg/locale/localelex.go: preprocessing ---- *)
(* utf8.RuneStart *)
Definition rune_start (c : ascii) : bool := negb (in_range 128 191 c).
(* utf8.DecodeLastRuneInString: length of the candidate encoding at the end; [t] is the text before the
   last k bytes, reversed *)
Fixpoint last_len (t : bytes) (k lim : nat) : nat :=
  match t, lim with
  | [], _ => k
  | _ :: _, O => S k
  | x :: t', S lim' => if rune_start x then S k else last_len t' (S k) lim'
  end.
Definition decode_last_rune (b : bytes) : N * nat :=
  match rev b with
  | [] => (rune_error, 0)
  | c :: t =>
      if (byte_val c <? 128)%N then (byte_val c, 1)
      else let k := last_len t 1 3 in
           let '(r, size) := decode_rune (skipn (List.length b - k) b) in
           if Nat.eqb size k then (r, size) else (rune_error, 1)
  end.

(* strings.Fields; [cur] is the word being read (None between words); fuel = number of bytes *)
Fixpoint fields_from (fuel : nat) (cur : option bytes) (b : bytes) : list bytes :=
  match fuel, b with
  | S f, _ :: _ =>
      let '(r, w) := decode_rune b in
      let rest := skipn w b in
      if is_space_rune r
      then match cur with Some x => x :: fields_from f None rest | None => fields_from f None rest end
      else fields_from f (Some (match cur with Some x => x | None => [] end ++ firstn w b)) rest
  | _, _ => match cur with Some x => [x] | None => [] end
  end.
Definition Fields (b : bytes) : list bytes := fields_from (List.length b) None b.

(* strings.TrimSpace *)
Fixpoint trim_left (fuel : nat) (b : bytes) : bytes :=
  match fuel, b with
  | S f, _ :: _ => let '(r, w) := decode_rune b in if is_space_rune r then trim_left f (skipn w b) else b
  | _, _ => b
  end.
Fixpoint trim_right (fuel : nat) (b : bytes) : bytes :=
  match fuel, b with
  | S f, _ :: _ =>
      let '(r, w) := decode_last_rune b in
      if is_space_rune r then trim_right f (firstn (List.length b - w) b) else b
  | _, _ => b
  end.
Definition TrimSpace (b : bytes) : bytes :=
  let l := trim_left (List.length b) b in trim_right (List.length l) l.

(* localelex.go:489-499: Some r when it returns true and stores r *)
Definition checkSpecialWord (line word : bytes) : option N :=
  if beqb (firstn (List.length word) line) word then
    match Fields line with
    | [_; w] => Some (fst (decode_rune w))
    | _ => None
    end
  else None.

(* localelex.go:519-529: the line with its continuations, and the lines left; running out of lines is an
   index out of range *)
Fixpoint join_cont (esc : N) (l : bytes) (rest : list bytes) : res (bytes * list bytes) :=
  match l with
  | [] => Ok (l, rest)
  | _ =>
      let '(r, size) := decode_last_rune l in
      if N.eqb r rune_error then Panic
      else if negb (N.eqb r esc) then Ok (l, rest)
      else match rest with
           | [] => Panic
           | n :: rest' => join_cont esc (firstn (List.length l - size) l ++ TrimSpace n) rest'
           end
  end.

(* localelex.go:508-539; fuel = number of lines; result: the output and the final escape character *)
Fixpoint remove_lines (fuel : nat) (cc ec : N) (lines : list bytes) : res (bytes * N) :=
  match fuel, lines with
  | _, [] => Ok ([], ec)
  | O, _ => Err (B "out of fuel")
  | S f, l :: rest =>
      if N.eqb (fst (decode_rune l)) cc then remove_lines f cc ec rest
      else
        let cc' := match checkSpecialWord l (B "comment_char") with Some r => r | None => cc end in
        match checkSpecialWord l (B "escape_char") with
        | Some r => remove_lines f cc' r rest
        | None =>
            rbind (join_cont ec l rest) (fun '(l', rest') =>
            rbind (remove_lines f cc' ec rest') (fun '(out, e) => Ok (l' ++ [nl] ++ out, e)))
        end
  end.
(* localelex.go:502-541; the global escapeChar is the second component *)
Definition removeComments (input : bytes) : res (bytes * N) :=
  let lines := split_on nl input in remove_lines (List.length lines) 35 92 lines.
