(* Model of /repo/pkg/txt/piece_table.go *)
From Verif Require Import GoBase.
Local Open Scope Z_scope.

(* piece_table.go:30-35 `reader io.ReaderAt`: either the table's original reader, or a
   bytes.Reader over a slice.  Simplified: bytes.NewReader(pt.append.Bytes()) aliases the append
   buffer, whose bytes are never overwritten once written (only Write is called on it), so the
   reader is modelled by the bytes it can see when created; likewise the caller of Insert is
   assumed not to overwrite [text] afterwards (line 120 keeps a reference to it). *)
Inductive reader := ROrig | RBuf (b : bytes).

(* piece_table.go:30-35; the `next` pointer is the list structure of [head]. *)
Record piece := { plen : Z; poff : Z; prdr : reader }.

(* piece_table.go:13-17.  [orig] is what the original reader holds, [closable] whether it has a
   Close method (an *os.File, not a strings.Reader), [closed] whether it was closed.
   [appendb] = None is the nil *bytes.Buffer of a zero PieceTable, [head] = [] the nil head. *)
Record piece_table := {
  orig : bytes; closable : bool; closed : bool;
  appendb : option bytes; head : list piece }.

(* The Go zero value PieceTable{} *)
Definition zero_table : piece_table :=
  {| orig := []; closable := false; closed := false; appendb := None; head := [] |}.

(* piece_table.go:20-27 *)
Definition new_piece_table (content : bytes) (can_close : bool) (length : Z) : piece_table :=
  {| orig := content; closable := can_close; closed := false; appendb := Some [];
     head := [{| plen := length; poff := 0; prdr := ROrig |}] |}.

(* piece_table.go:38-43 *)
Definition pt_close (pt : piece_table) : piece_table :=
  if closable pt
  then {| orig := orig pt; closable := true; closed := true; appendb := appendb pt; head := head pt |}
  else pt.

(* io.ReaderAt.ReadAt of exactly [n] bytes at [off] (strings.Reader, bytes.Reader, os.File):
   None = a non-nil error (negative offset, short read, or closed file). *)
Definition read_at (pt : piece_table) (r : reader) (off n : Z) : option bytes :=
  let content := match r with ROrig => orig pt | RBuf b => b end in
  let shut := match r with ROrig => closed pt | RBuf _ => false end in
  if shut then None
  else if (0 <=? off) && (off + n <=? Z.of_nat (List.length content))
  then Some (firstn (Z.to_nat n) (skipn (Z.to_nat off) content))
  else None.

(* piece_table.go:55-74 with len(bytes) = p.length, as String calls it; lengths 0 and < 0 are
   dealt with by the caller [string_pieces] (lines 87-92). *)
Definition piece_read (pt : piece_table) (p : piece) : option bytes :=
  read_at pt (prdr p) (poff p) (plen p).

(* piece_table.go:86-98 (second loop of String); Panic where String panics. *)
Fixpoint string_pieces (pt : piece_table) (ps : list piece) : res bytes :=
  match ps with
  | [] => Ok []
  | p :: r =>
      if plen p =? 0 then string_pieces pt r
      else if plen p <? 0 then Panic
      else match piece_read pt p with
           | None => Panic
           | Some b => rbind (string_pieces pt r) (fun s => Ok (b ++ s))
           end
  end.

(* piece_table.go:79-82 *)
Definition total_len (ps : list piece) : Z := fold_right (fun p n => plen p + n) 0 ps.

(* piece_table.go:77-100; make([]byte, length) panics on a negative length. *)
Definition pt_string (pt : piece_table) : res bytes :=
  if total_len (head pt) <? 0 then Panic else string_pieces pt (head pt).

(* piece_table.go:124-148: the loop of Insert over the pieces, [idx] being the bytes before.
   None = falls off the end of the list, or nil-pointer dereference of pt.append (line 132). *)
Fixpoint insert_pieces (app : option bytes) (text : bytes) (at_ idx : Z) (ps : list piece)
  : option (list piece * bytes) :=
  match ps with
  | [] => None
  | p :: r =>
      let idx' := idx + plen p in
      if at_ <=? idx' then
        match app with
        | None => None
        | Some buf =>
            let left := at_ - (idx' - plen p) in
            let buf' := buf ++ text in
            let before := {| plen := left; poff := poff p; prdr := prdr p |} in
            let after := {| plen := plen p - left; poff := poff p + left; prdr := prdr p |} in
            let new := {| plen := Z.of_nat (List.length text);
                          poff := Z.of_nat (List.length buf); prdr := RBuf buf' |} in
            Some (before :: new :: after :: r, buf')
        end
      else match insert_pieces app text at_ idx' r with
           | None => None
           | Some (ps', buf') => Some (p :: ps', buf')
           end
  end.

(* Whether a method that returns nothing returned or panicked. *)
Inductive outcome := Returned | Panics.

(* piece_table.go:113-150 *)
Definition pt_insert (pt : piece_table) (text : bytes) (at_ : Z) : piece_table * outcome :=
  match head pt with
  | [] => ({| orig := orig pt; closable := closable pt; closed := closed pt; appendb := appendb pt;
              head := [{| plen := Z.of_nat (List.length text); poff := 0; prdr := RBuf text |}] |},
           Returned)
  | _ =>
      match insert_pieces (appendb pt) text at_ 0 (head pt) with
      | None => (pt, Panics)
      | Some (ps, buf) =>
          ({| orig := orig pt; closable := closable pt; closed := closed pt;
              appendb := Some buf; head := ps |}, Returned)
      end
  end.

(* piece_table.go:155-179 after `first` was found: look for the piece where the deleted range
   ends at [stop] = at+length; None = never reached, the pieces are left as they are. *)
Fixpoint delete_rest (stop start : Z) (ps : list piece) : option (list piece) :=
  match ps with
  | [] => None
  | q :: r =>
      let e := start + plen q in
      if stop <=? e
      then Some ({| plen := plen q - (stop - start); poff := poff q + (stop - start); prdr := prdr q |} :: r)
      else delete_rest stop e r
  end.

(* piece_table.go:155-179 *)
Fixpoint delete_pieces (at_ n stop start : Z) (ps : list piece) : list piece :=
  match ps with
  | [] => []
  | p :: r =>
      let e := start + plen p in
      if at_ <=? e then
        let p1 := {| plen := at_ - start; poff := poff p; prdr := prdr p |} in
        if stop <=? e then
          p1 :: {| plen := e - stop; poff := poff p + (at_ - start + n); prdr := prdr p |} :: r
        else match delete_rest stop e r with
             | Some r' => p1 :: r'
             | None => p1 :: r
             end
      else p :: delete_pieces at_ n stop e r
  end.

(* piece_table.go:152-181.  at+length is 64-bit wrap-around arithmetic; the other sums are
   modelled without overflow (they only involve piece lengths). *)
Definition pt_delete (pt : piece_table) (n at_ : Z) : piece_table :=
  {| orig := orig pt; closable := closable pt; closed := closed pt; appendb := appendb pt;
     head := delete_pieces at_ n (wrap64 (at_ + n)) 0 (head pt) |}.

(* piece_table.go:206-213; Panic when a slice index is out of range or make() is asked for more
   than the maximal int. *)
Definition naive_insert (nt text : bytes) (at_ : Z) : res bytes :=
  if (0 <=? at_) && (at_ <=? Z.of_nat (List.length nt))
     && (Z.of_nat (List.length nt) + Z.of_nat (List.length text) <=? max_int64)
  then Ok (firstn (Z.to_nat at_) nt ++ text ++ skipn (Z.to_nat at_) nt)
  else Panic.

(* piece_table.go:214-216: append(nt[:at], nt[at+length:]...) through the pointer.  (Slicing [:at] is checked
   against the capacity in Go; modelled against the length, which is stricter.) *)
Definition naive_delete (nt : bytes) (n at_ : Z) : res bytes :=
  let j := wrap64 (at_ + n) in
  if (0 <=? at_) && (at_ <=? Z.of_nat (List.length nt))
     && (0 <=? j) && (j <=? Z.of_nat (List.length nt))
  then Ok (firstn (Z.to_nat at_) nt ++ skipn (Z.to_nat j) nt)
  else Panic.

(* How Fuzz ends: return 0, panic("problem") at line 254, or some other run-time panic. *)
Inductive fuzz_end := FuzzReturned | FuzzProblem | FuzzCrash.

(* piece_table.go:228-256, one iteration per remaining scanned line.  [sscanf] stands for
   fmt.Sscanf(cmd, "%d %d %s", ..) returning n = 3 and no error (Some (typ, at, txt)) or not. *)
Fixpoint fuzz_loop (sscanf : bytes -> option (Z * Z * bytes))
    (nt : bytes) (pt : piece_table) (cmds : list bytes) : fuzz_end :=
  match cmds with
  | [] => FuzzReturned
  | cmd :: rest =>
      match sscanf cmd with
      | None => FuzzReturned
      | Some (typ, at0, txt) =>
          if (at0 <? 0) || (typ =? 0) then FuzzReturned
          else
            let len := Z.of_nat (List.length nt) in
            let at_ := if len <? at0 then len else at0 in
            let check nt' pt' :=
              match pt_string pt' with
              | Ok s => if beqb nt' s then fuzz_loop sscanf nt' pt' rest else FuzzProblem
              | _ => FuzzCrash
              end in
            if 0 <? typ then
              match naive_insert nt txt at_ with
              | Ok nt' =>
                  match pt_insert pt txt at_ with
                  | (pt', Returned) => check nt' pt'
                  | (_, Panics) => FuzzCrash
                  end
              | _ => FuzzCrash
              end
            else
              match atoi txt with
              | None => FuzzReturned
              | Some length =>
                  if (length <? 0) || (len <=? wrap64 (at_ + length)) then FuzzReturned
                  else match naive_delete nt length at_ with
                       | Ok nt' => check nt' (pt_delete pt length at_)
                       | _ => FuzzCrash
                       end
              end
      end
  end.

(* piece_table.go:218-262 *)
Definition fuzz (sscanf : bytes -> option (Z * Z * bytes)) (data : bytes) : fuzz_end :=
  let '(lines, toolong) := scan_lines data in
  match lines with
  | [] => if toolong then FuzzReturned   (* line 221 *)
          else fuzz_loop sscanf [] (new_piece_table [] false 0) []
  | o :: cmds =>
      fuzz_loop sscanf o (new_piece_table o false (Z.of_nat (List.length o))) cmds
  end.
