(* Model of cmd/cat/main.go. *)
From Verif Require Import GoBase.

(* What reading to the end gives: the bytes, then the text of the read error if any. *)
Definition stream := (bytes * option bytes)%type.

(* The environment.  [opens f]: what os.Open(f) gives, the error text or what can be read.
   [stdin_at i]: what is still unread on standard input when the operand at position i is "-"
   (normally nothing after an earlier "-", but a terminal can deliver more). *)
Record world := { opens : bytes -> stream + bytes; stdin_at : nat -> stream }.

(* cmd/cat/main.go:12-32: bytes written, error text.  Write errors are not modelled. *)
Definition write_file (w : world) (i : nat) (f : bytes) : bytes * option bytes :=
  if beqb f (B "-") then stdin_at w i
  else match opens w f with
       | inl s => s
       | inr e => ([], Some e)
       end.

(* cmd/cat/main.go:48-54 from position i on: standard output, standard error *)
Fixpoint cat_loop (w : world) (i : nat) (fs : list bytes) : bytes * bytes :=
  match fs with
  | [] => ([], [])
  | f :: r =>
      match write_file w i f with
      | (o, Some e) =>
          (o, B "Error encountered while attempting to read from " ++ f ++ B ": " ++ e ++ [nl])
      | (o, None) => let '(o', e') := cat_loop w (S i) r in (o ++ o', e')
      end
  end.

(* cmd/cat/main.go:35-46 *)
Definition filenames (args : list bytes) : list bytes :=
  match filter (fun a => negb (beqb a (B "-u"))) args with
  | [] => [B "-"]
  | l => l
  end.

(* cmd/cat/main.go:34-55 *)
Definition cat_main (w : world) (args : list bytes) : run_result :=
  let '(o, e) := cat_loop w 0 (filenames args) in {| out := o; errout := e; fin := Exit 0 |}.
