(* The utilities again, this time as the calls they make on their outputs, so that a write on standard output can fail.
   WriteProofs.v shows that when every write succeeds they do what the models of CatModel.v, HeadModel.v, CksumModel.v,
   TsortModel.v, CmpModel.v and DiffModel.v say. *)
From Verif Require Import GoBase.
From Verif Require CatModel HeadModel CksumModel TsortModel CmpModel DiffModel.

(* What a program still does: end, write [m] on standard error without looking at the result, or write [p] on standard
   output and go on with the error the write returned (None is nil).  Output is unbuffered: one call of fmt.Print,
   fmt.Println, fmt.Printf or fmt.Fprintln is one os.File.Write.  A write error EPIPE is not included: it kills the
   process with SIGPIPE. *)
Inductive prog :=
| End (e : ending)
| Say (m : bytes) (k : prog)
| Put (p : bytes) (k : option bytes -> prog).

(* What standard output answers to the i-th write when that is [p]: how many bytes it takes and the error. *)
Definition sink := nat -> bytes -> nat * option bytes.

(* A run: the bytes standard output took, those on standard error, and the ending.  [i] counts the writes. *)
Fixpoint exec (s : sink) (i : nat) (g : prog) : run_result :=
  match g with
  | End e => {| out := []; errout := []; fin := e |}
  | Say m k => let r := exec s i k in {| out := out r; errout := m ++ errout r; fin := fin r |}
  | Put p k =>
      let '(n, e) := s i p in
      let r := exec s (S i) (k e) in
      {| out := firstn n p ++ out r; errout := errout r; fin := fin r |}
  end.

(* a write whose error is thrown away *)
Definition put (p : bytes) (k : prog) : prog := Put p (fun _ => k).

(* ---- cmd/cat/main.go ---- *)

(* io.Copy (main.go:13) on an input that comes in the pieces [ps] with the error [e] (or the end) after them: stops at
   the first failing write, whose error it returns *)
Fixpoint copy (ps : list bytes) (e : option bytes) (k : option bytes -> prog) : prog :=
  match ps with
  | [] => k e
  | p :: r => Put p (fun x => match x with Some x => k (Some x) | None => copy r e k end)
  end.

(* main.go:51 *)
Definition cat_message (f e : bytes) : bytes :=
  B "Error encountered while attempting to read from " ++ f ++ B ": " ++ e ++ [nl].

(* main.go:17-32 and 48-54; [pieces b] is how the reads cut the input [b] *)
Fixpoint cat_calls (w : CatModel.world) (pieces : bytes -> list bytes) (i : nat) (fs : list bytes) : prog :=
  match fs with
  | [] => End (Exit 0)
  | f :: r =>
      let after e := match e with
                     | Some e => Say (cat_message f e) (End (Exit 0))
                     | None => cat_calls w pieces (S i) r
                     end in
      if beqb f (B "-") then copy (pieces (fst (CatModel.stdin_at w i))) (snd (CatModel.stdin_at w i)) after
      else match CatModel.opens w f with
           | inl s => copy (pieces (fst s)) (snd s) after
           | inr e => after (Some e)
           end
  end.
(* main.go:34-55 *)
Definition cat_prog (w : CatModel.world) (pieces : bytes -> list bytes) (args : list bytes) : prog :=
  cat_calls w pieces 0 (CatModel.filenames args).

(* ---- cmd/head/main.go ---- *)

(* main.go:67-75 as HeadModel.head_segs, with what follows when it ends: true is a panic *)
Fixpoint head_lines (segs : list bytes) (rerr : bool) (k : Z) (after : bool -> prog) : prog :=
  match segs with
  | [] => after rerr
  | [s] =>
      if (max_token <=? N.of_nat (List.length s))%N then after true
      else match s with
           | [] => after rerr
           | _ => if (0 <? k)%Z then put (drop_cr s ++ [nl]) (after rerr) else after rerr
           end
  | s :: r =>
      if (max_token <=? N.of_nat (List.length s))%N then after true
      else if (0 <? k)%Z then put (drop_cr s ++ [nl]) (head_lines r rerr (k - 1) after)
      else after false
  end.
(* main.go:50-55 *)
Definition head_title (many : bool) (i : nat) (f : bytes) (k : prog) : prog :=
  if many then
    let h := put (B "==> " ++ f ++ B " <==" ++ [nl]) k in
    if 0 <? i then put [nl] h else h
  else k.
(* main.go:47-78 *)
Fixpoint head_calls (w : HeadModel.world) (many : bool) (k : Z) (i : nat) (fs : list bytes) : prog :=
  match fs with
  | [] => End (Exit 0)
  | f :: r =>
      head_title many i f
        match HeadModel.open w i f with
        | None => End Panicked
        | Some c =>
            head_lines (split_on nl (fst c)) (match snd c with Some _ => true | None => false end) k
              (fun p => if p then End Panicked else head_calls w many k (S i) r)
        end
  end.
(* main.go:80-86 *)
Definition head_prog (w : HeadModel.world) (args : list bytes) : prog :=
  match HeadModel.parse_settings args with
  | Ok s => head_calls w (1 <? List.length (HeadModel.filenames s)) (HeadModel.numLines s) 0 (HeadModel.filenames s)
  | _ => End Panicked
  end.

(* ---- cmd/cksum/main.go ---- *)

(* main.go:9-12 *)
Definition cksum_die (msg e : bytes) : prog := Say (msg ++ B " " ++ e) (End (Exit 1)).
(* main.go:14-30 and 37-39 *)
Fixpoint cksum_calls (fs : bytes -> CksumModel.file_read) (stdin : bytes * option bytes) (files : list bytes) : prog :=
  match files with
  | [] => End (Exit 0)
  | f :: r =>
      if beqb f (B "-") then
        match stdin with
        | (_, Some e) => cksum_die (B "couldn't read input") e
        | (b, None) => put (CksumModel.crc_line b f) (cksum_calls fs ([], None) r)
        end
      else
        match fs f with
        | CksumModel.OpenFails e => cksum_die (B "couldn't open file") e
        | CksumModel.Reads _ (Some e) => cksum_die (B "couldn't read input") e
        | CksumModel.Reads b None => put (CksumModel.crc_line b f) (cksum_calls fs stdin r)
        end
  end.
(* main.go:32-40 *)
Definition cksum_prog (fs : bytes -> CksumModel.file_read) (stdin : bytes * option bytes) (args : list bytes) : prog :=
  cksum_calls fs stdin (match args with [] => [B "-"] | _ => args end).

(* ---- cmd/cmp/main.go ---- *)

(* main.go:110 and 115; 88 and 95 *)
Definition cmp_fail (msg : bytes) : prog := Say (B "Error: " ++ msg) (End (Exit 2)).
Definition cmp_eof (name : bytes) : prog := Say (B "cmp: EOF on " ++ name ++ [nl]) (End (Exit 1)).
(* main.go:61-101 *)
Fixpoint cmp_calls (s : CmpModel.settings) (b1 b2 : bytes) (e1 e2 : option bytes) (i l : nat) : prog :=
  match b1, b2 with
  | c1 :: r1, c2 :: r2 =>
      let l' := if Ascii.eqb c1 nl then S l else l in
      if Ascii.eqb c1 c2 then cmp_calls s r1 r2 e1 e2 (S i) l'
      else
        let next := if CmpModel.writeAll s then cmp_calls s r1 r2 e1 e2 (S i) l' else End (Exit 1) in
        if CmpModel.silent s then next
        else if CmpModel.writeAll s then put (ntoa i ++ B " " ++ octal c1 ++ B " " ++ octal c2 ++ [nl]) next
        else put (CmpModel.file1 s ++ B " " ++ CmpModel.file2 s ++ B " differ: char " ++ ntoa i ++ B ", line " ++ ntoa l
                  ++ [nl]) next
  | [], _ =>
      match e1, b2, e2 with
      | None, [], None => End (Exit 0)
      | None, _, _ => cmp_eof (CmpModel.file1 s)
      | Some e, _, _ => cmp_fail (B "Error reading " ++ CmpModel.file1 s ++ B ": " ++ e)
      end
  | _ :: _, [] =>
      match e2 with
      | None => cmp_eof (CmpModel.file2 s)
      | Some e => cmp_fail (B "Error reading " ++ CmpModel.file2 s ++ B ": " ++ e)
      end
  end.
(* main.go:46-118 *)
Definition cmp_prog (w : CmpModel.world) (args : list bytes) : prog :=
  match CmpModel.parse_settings args with
  | Ok s =>
      match CmpModel.open_both w s with
      | Ok ((b1, e1), (b2, e2)) => cmp_calls s b1 b2 e1 e2 1 1
      | Err m => cmp_fail m
      | Panic => cmp_fail []
      end
  | Err m => cmp_fail m
  | Panic => cmp_fail []
  end.

(* ---- cmd/tsort/main.go and cmd/diff/main.go: one call per line of the result, and one call ---- *)

(* cmd/tsort/main.go:43-45 *)
Fixpoint put_lines (l : list bytes) (k : prog) : prog :=
  match l with
  | [] => k
  | x :: r => put (x ++ [nl]) (put_lines r k)
  end.
Section Tsort.
(* as in TsortModel.v *)
Variable perm : list bytes -> list bytes.
(* main.go:12-15 *)
Definition tsort_die (msg arg : bytes) : prog :=
  Say (B "ahh jeez, " ++ msg ++ B " [" ++ arg ++ B "]" ++ [nl]) (End (Exit 1)).
(* main.go:17-51 *)
Definition tsort_calls (words : list bytes) (scan_err : option bytes) : option prog :=
  match TsortModel.read_pairs TsortModel.new_sorter words with
  | inr w1 => Some (tsort_die (B "unmatched word!") w1)
  | inl s =>
      match scan_err with
      | Some e => Some (tsort_die (B "scan error!") e)
      | None =>
          match TsortModel.order perm s with
          | None => None
          | Some (_, Ok l) => Some (put_lines l (End (Exit 0)))
          | Some (_, Err e) => Some (tsort_die (B "sort error!") e)
          | Some (_, Panic) => None
          end
      end
  end.
(* main.go:53-68 *)
Definition tsort_prog (fs : bytes -> option (bytes * option bytes)) (stdin : bytes * option bytes) (args : list bytes)
  : option prog :=
  let go (input : bytes * option bytes) :=
    let '(ws, toolong) := TsortModel.scan_words (fst input) in
    tsort_calls ws (if toolong then Some (B "bufio.Scanner: token too long") else snd input) in
  match args with
  | [] => go stdin
  | fname :: _ =>
      if beqb fname (B "-") then go stdin
      else match fs fname with
           | None => Some (tsort_die (B "can't open") fname)
           | Some content => go content
           end
  end.
End Tsort.

(* cmd/diff/main.go:96-109; the message about the arguments goes to standard output as well.  [atoi_err] as in DiffModel.v *)
Definition diff_prog (atoi_err : bytes -> bytes) (fs : bytes -> option bytes) (args : list bytes) : option prog :=
  match DiffModel.parse_settings atoi_err args with
  | Err m => Some (put (B "Oh heck an error: " ++ m ++ [nl]) (End (Exit 1)))
  | Panic => Some (End Panicked)
  | Ok s =>
      match DiffModel.diff (DiffModel.read_lines fs (DiffModel.file1 s)) (DiffModel.read_lines fs (DiffModel.file2 s)) with
      | None => None
      | Some (Ok changes) => Some (put (DiffModel.format changes ++ [nl]) (End (Exit 0)))
      | Some _ => Some (End Panicked)
      end
  end.
