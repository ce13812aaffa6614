(* Model of /repo/pkg/diff/diff.go, /repo/pkg/diff/output.go, /repo/pkg/diff/fuzz.go and
   /repo/cmd/diff/main.go *)
From Verif Require Import GoBase.

(* ---------- pkg/diff/diff.go ---------- *)

(* diff.go:8-12 *)
Inductive ckind := Equal | Add | Minus.

(* diff.go:20-23 *)
Record comparison := { kind : ckind; values : list bytes }.

(* diff.go:45-48: oldIndices[k] = append(oldIndices[k], i), as an association list
   (Go map with string keys; a missing key reads as the empty slice). *)
Definition indices_map := list (bytes * list nat).

Fixpoint im_get (m : indices_map) (k : bytes) : list nat :=
  match m with
  | [] => []
  | (k', v) :: r => if beqb k' k then v else im_get r k
  end.

Definition im_append (m : indices_map) (k : bytes) (i : nat) : indices_map :=
  (k, im_get m k ++ [i]) :: m.

Fixpoint build_indices (i : nat) (old : list bytes) (m : indices_map) : indices_map :=
  match old with
  | [] => m
  | k :: r => build_indices (S i) r (im_append m k i)
  end.

(* diff.go:50, 55: map[int]int; a missing key reads as 0. *)
Definition overlap_map := list (nat * nat).
Fixpoint om_get (m : overlap_map) (k : nat) : nat :=
  match m with
  | [] => 0
  | (k', v) :: r => if k' =? k then v else om_get r k
  end.

(* diff.go:51-53 the best run so far *)
Record best := { sub_old : nat; sub_new : nat; sub_len : nat }.

(* diff.go:56-68, body of the inner loop for one iold *)
Definition inner_step (overlap : overlap_map) (inew : nat) (st : overlap_map * best) (iold : nat)
  : overlap_map * best :=
  let '(nov, b) := st in
  let v := match iold with
           | O => 1
           | S j => om_get overlap j + 1
           end in
  let nov' := (iold, v) :: nov in
  let n := om_get nov' iold in
  if sub_len b <? n
  then (nov', {| sub_len := n; sub_old := iold + 1 - n; sub_new := inew + 1 - n |})
  else (nov', b).

(* diff.go:54-70, the outer loop over new *)
Fixpoint outer_loop (idx : indices_map) (inew : nat) (new : list bytes)
    (overlap : overlap_map) (b : best) : best :=
  match new with
  | [] => b
  | v :: r =>
      let '(nov, b') := fold_left (inner_step overlap inew) (im_get idx v) ([], b) in
      outer_loop idx (S inew) r nov b'
  end.

Definition longest_run (old new : list bytes) : best :=
  outer_loop (build_indices 0 old []) 0 new [] {| sub_old := 0; sub_new := 0; sub_len := 0 |}.

(* Go slice expression s[lo:hi]; None = run-time panic (capacity = length assumed). *)
Definition slice {A} (s : list A) (lo hi : nat) : option (list A) :=
  if (lo <=? hi) && (hi <=? List.length s) then Some (firstn (hi - lo) (skipn lo s)) else None.

(* diff.go:34-91.  Fuel bounds the recursion depth: None = out of fuel (excluded by theorem
   C06), Some Panic = run-time panic. *)
Fixpoint diff_fuel (fuel : nat) (old new : list bytes) : option (res (list comparison)) :=
  match fuel with
  | O => None
  | S f =>
      match old, new with
      | [], [] => Some (Ok [])
      | [], _ => Some (Ok [{| kind := Add; values := new |}])
      | _, [] => Some (Ok [{| kind := Minus; values := old |}])
      | _, _ =>
          let b := longest_run old new in
          if sub_len b =? 0
          then Some (Ok [{| kind := Minus; values := old |}; {| kind := Add; values := new |}])
          else
            match slice old 0 (sub_old b), slice new 0 (sub_new b),
                  slice new (sub_new b) (sub_new b + sub_len b),
                  slice old (sub_old b + sub_len b) (List.length old),
                  slice new (sub_new b + sub_len b) (List.length new) with
            | Some o1, Some n1, Some run, Some o2, Some n2 =>
                match diff_fuel f o1 n1, diff_fuel f o2 n2 with
                | Some r1, Some r2 =>
                    Some (rbind r1 (fun c1 => rbind r2 (fun c2 =>
                      Ok (c1 ++ [{| kind := Equal; values := run |}] ++ c2))))
                | _, _ => None
                end
            | _, _, _, _, _ => Some Panic
            end
      end
  end.

(* diff.go:34 *)
Definition diff (old new : list bytes) : option (res (list comparison)) :=
  diff_fuel (S (List.length old)) old new.

(* ---------- pkg/diff/output.go ---------- *)

(* output.go:8-14 *)
Definition fmt_range (start length : nat) : bytes :=
  if 1 <? length
  then ntoa (start + 1) ++ B "," ++ ntoa (start + 1 + length - 1)
  else ntoa (start + 1).

(* output.go:37-84: the lines appended to [out]. [i++] past a merged add is the two-element
   pattern. *)
Fixpoint output_lines (lineOld lineNew : nat) (changes : list comparison) : list bytes :=
  match changes with
  | [] => []
  | c :: rest =>
      let n := List.length (values c) in
      match kind c with
      | Equal => output_lines (lineOld + n) (lineNew + n) rest
      | Add =>
          (ntoa lineOld ++ B "a" ++ fmt_range lineNew n)
            :: map (fun l => B "> " ++ l) (values c)
            ++ output_lines lineOld (lineNew + n) rest
      | Minus =>
          let delete_only :=
            (fmt_range lineOld n ++ B "d" ++ ntoa lineNew)
              :: map (fun l => B "< " ++ l) (values c)
              ++ output_lines (lineOld + n) lineNew rest in
          match rest with
          | c2 :: rest' =>
              match kind c2 with
              | Add =>
                  let n2 := List.length (values c2) in
                  (fmt_range lineOld n ++ B "c" ++ fmt_range lineNew n2)
                    :: map (fun l => B "< " ++ l) (values c)
                    ++ [B "---"]
                    ++ map (fun l => B "> " ++ l) (values c2)
                    ++ output_lines (lineOld + n) (lineNew + n2) rest'
              | _ => delete_only
              end
          | [] => delete_only
          end
      end
  end.

(* output.go:16-18, 37-87 *)
Definition format (changes : list comparison) : bytes := join [nl] (output_lines 0 0 changes).

(* ---------- pkg/diff/fuzz.go ---------- *)

(* fuzz.go:9-26 *)
Definition assemble_old (cs : list comparison) : list bytes :=
  flat_map (fun c => match kind c with Add => [] | _ => values c end) cs.
Definition assemble_new (cs : list comparison) : list bytes :=
  flat_map (fun c => match kind c with Minus => [] | _ => values c end) cs.

(* ---------- cmd/diff/main.go ---------- *)

(* main.go:12-22 *)
Record settings := {
  ignore_ws : bool; provide_context : bool; context_size : Z; ed_format : bool; f_format : bool;
  recursive : bool; unified : bool; file1 : bytes; file2 : bytes }.

Definition default_settings : settings :=   (* main.go:25 *)
  {| ignore_ws := false; provide_context := false; context_size := 3; ed_format := false;
     f_format := false; recursive := false; unified := false; file1 := []; file2 := [] |}.

(* value part of strconv.Atoi even when it fails: 0, or the nearest int on range errors *)
Definition atoi_value (b : bytes) : Z :=
  match parse_dec b with
  | None => 0
  | Some z => Z.max min_int64 (Z.min max_int64 z)
  end.

Definition set_b s := {| ignore_ws := true; provide_context := provide_context s; context_size := context_size s; ed_format := ed_format s; f_format := f_format s; recursive := recursive s; unified := unified s; file1 := file1 s; file2 := file2 s |}.
Definition set_c s := {| ignore_ws := ignore_ws s; provide_context := true; context_size := context_size s; ed_format := ed_format s; f_format := f_format s; recursive := recursive s; unified := unified s; file1 := file1 s; file2 := file2 s |}.
Definition set_C s n := {| ignore_ws := ignore_ws s; provide_context := true; context_size := n; ed_format := ed_format s; f_format := f_format s; recursive := recursive s; unified := unified s; file1 := file1 s; file2 := file2 s |}.
Definition set_e s := {| ignore_ws := ignore_ws s; provide_context := provide_context s; context_size := context_size s; ed_format := true; f_format := f_format s; recursive := recursive s; unified := unified s; file1 := file1 s; file2 := file2 s |}.
Definition set_f s := {| ignore_ws := ignore_ws s; provide_context := provide_context s; context_size := context_size s; ed_format := ed_format s; f_format := true; recursive := recursive s; unified := unified s; file1 := file1 s; file2 := file2 s |}.
Definition set_r s := {| ignore_ws := ignore_ws s; provide_context := provide_context s; context_size := context_size s; ed_format := ed_format s; f_format := f_format s; recursive := true; unified := unified s; file1 := file1 s; file2 := file2 s |}.
Definition set_u s := {| ignore_ws := ignore_ws s; provide_context := provide_context s; context_size := context_size s; ed_format := ed_format s; f_format := f_format s; recursive := recursive s; unified := true; file1 := file1 s; file2 := file2 s |}.
Definition set_U s n := {| ignore_ws := ignore_ws s; provide_context := provide_context s; context_size := n; ed_format := ed_format s; f_format := f_format s; recursive := recursive s; unified := true; file1 := file1 s; file2 := file2 s |}.
Definition set_file1 s x := {| ignore_ws := ignore_ws s; provide_context := provide_context s; context_size := context_size s; ed_format := ed_format s; f_format := f_format s; recursive := recursive s; unified := unified s; file1 := x; file2 := file2 s |}.
Definition set_file2 s x := {| ignore_ws := ignore_ws s; provide_context := provide_context s; context_size := context_size s; ed_format := ed_format s; f_format := f_format s; recursive := recursive s; unified := unified s; file1 := file1 s; file2 := x |}.

Definition msg_number_missing (a : bytes) : bytes :=
  B "ah heck I though that a number was gonna follow " ++ a.

Section Main.
(* text of strconv's *NumError for the given input (not modelled) *)
Variable atoi_err : bytes -> bytes.

(* main.go:28-71.  `args` is the remaining slice args[i:]. *)
Fixpoint parse_loop (s : settings) (args : list bytes) : res settings :=
  match args with
  | [] => Ok s
  | a :: r =>
      if beqb a (B "-b") then parse_loop (set_b s) r
      else if beqb a (B "-c") then parse_loop (set_c s) r
      else if beqb a (B "-C") then
        match r with
        | [] => Err (msg_number_missing a)
        | x :: r' => parse_loop (set_C s (atoi_value x)) r'
        end
      else if beqb a (B "-e") then parse_loop (set_e s) r
      else if beqb a (B "-f") then parse_loop (set_f s) r
      else if beqb a (B "-r") then parse_loop (set_r s) r
      else if beqb a (B "-u") then parse_loop (set_u s) r
      else if beqb a (B "-U") then
        match r with
        | [] => Err (msg_number_missing a)
        | x :: r' =>
            match atoi x with
            | None => Err (atoi_err x)
            | Some n => parse_loop (set_U s n) r'
            end
        end
      else if beqb (file1 s) [] then parse_loop (set_file1 s a) r
      else if beqb (file2 s) [] then parse_loop (set_file2 s a) r
      else Err (B "aww jeez you can only compare two files, " ++ a ++ B " is the third")
  end.

(* main.go:24-81 *)
Definition parse_settings (args : list bytes) : res settings :=
  match parse_loop default_settings args with
  | Ok s =>
      if beqb (file1 s) [] then Err (B "oh no you forgot to give any files")
      else if beqb (file2 s) [] then Err (B "oh no you forgot to give the second file")
      else Ok s
  | e => e
  end.

(* main.go:83-95: lines read (nil on open failure); the error is returned separately but main
   discards it.  [fs name] = None: os.Open fails; Some content: the bytes that can be read before
   end of file or a read error. *)
Definition read_lines (fs : bytes -> option bytes) (fn : bytes) : list bytes :=
  match fs fn with
  | None => []
  | Some content => fst (scan_lines content)
  end.

(* main.go:97-109.  None = Diff out of fuel (excluded by C06). *)
Definition diff_main (fs : bytes -> option bytes) (args : list bytes) : option run_result :=
  match parse_settings args with
  | Err m => Some {| out := B "Oh heck an error: " ++ m ++ [nl]; errout := []; fin := Exit 1 |}
  | Panic => Some {| out := []; errout := []; fin := Panicked |}
  | Ok s =>
      match diff (read_lines fs (file1 s)) (read_lines fs (file2 s)) with
      | None => None
      | Some (Ok changes) => Some {| out := format changes ++ [nl]; errout := []; fin := Exit 0 |}
      | Some _ => Some {| out := []; errout := []; fin := Panicked |}
      end
  end.
End Main.
