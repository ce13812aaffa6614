(* Property theorems C134 and C135 (pkg/ed: the commands k, m, t, r and ! as they are read, and the commands
   that are read and not carried out).  [compile], [capacity], [errtext] and [o] are as in EdProps.v. *)
From Verif Require Import GoBase GoFacts NumFacts Utf8Facts RuneFacts PieceTableModel PieceTableProofs EdModel EdSpec EdProps EdPegModel EdPegSpec EdPegProofs EdPegProofs2
  EdPegProofs3 EdPegProofs5 EdNyiSpec EdNyiProofs.
Local Open Scope Z_scope.

(* C134: k with an address or without, and any blanks: the address and the letter are sent. *)
Theorem C134_mark : forall lead r gap c trail, blanks lead -> wrange_ok r -> at_most_one r -> blanks gap ->
  mark_name c -> blanks trail ->
  parsed (lead ++ wrange_text r ++ gap ++ B "k" ++ [c] ++ trail ++ [nl]) [the_command ctmark (wrange_start r) zero_address [] [[c]]].
Proof. exact mark_command. Qed.
Print Assumptions C134_mark.
(* C134: m and t with every form of range, and a destination right after the letter. *)
Theorem C134_destination_partial : forall lead r gap x t a trail, blanks lead -> wrange_ok r -> blanks gap -> (r <> NoAddress -> ~ closed r -> gap = []) ->
  dest_letter x t -> waddr_ok a -> blanks trail ->
  parsed (lead ++ wrange_text r ++ gap ++ [x] ++ waddr_text a ++ trail ++ [nl]) [to_command t (wrange_start r) (wrange_end r) (read_as a)].
Proof. exact dest_command. Qed.
Print Assumptions C134_destination_partial.
(* C134 refuted, for every range, destination and number of blanks between the letter and the destination: the
   command is rejected.  (The same blanks are allowed before the addresses of a range.) *)
Theorem C134_blank_destination_refuted : forall lead r gap x t b a trail, blanks lead -> wrange_ok r -> blanks gap -> (r = NoAddress -> gap = []) ->
  dest_letter x t -> blanks b -> b <> [] -> waddr_ok a -> blanks trail ->
  rejected (lead ++ wrange_text r ++ gap ++ [x] ++ b ++ waddr_text a ++ trail ++ [nl]).
Proof.
  intros lead r gap x t b a trail Hl Hr Hg Ng Hx Hb Nb Ha Ht. apply (dest_rejected lead r gap x t); auto.
  destruct b as [|c b]; [congruence|]. inversion Hb as [|? ? Hc]; subst.
  cbn [app]. rewrite runes_of_ascii_cons by (destruct Hc as [-> | ->]; reflexivity). destruct Hc as [-> | ->]; reflexivity.
Qed.
Print Assumptions C134_blank_destination_refuted.
(* m and t without a destination are rejected too. *)
Theorem C134_no_destination : forall lead r gap x t trail, blanks lead -> wrange_ok r -> blanks gap -> (r = NoAddress -> gap = []) ->
  dest_letter x t -> blanks trail -> rejected (lead ++ wrange_text r ++ gap ++ [x] ++ trail ++ [nl]).
Proof.
  intros lead r gap x t trail Hl Hr Hg Ng Hx Ht. apply (dest_rejected lead r gap x t); auto.
  rewrite runes_ascii by (apply ascii_app; [now apply ascii_blanks|apply ascii_B1; [reflexivity|constructor]]).
  destruct trail as [|c trail]; [reflexivity|]. inversion Ht as [|? ? Hc]; subst. destruct Hc as [-> | ->]; reflexivity.
Qed.
Print Assumptions C134_no_destination.
(* C134: r with a file name: what is sent is the first n bytes of a name of n characters. *)
Theorem C134_read_partial : forall lead r gap b1 f, blanks lead -> wrange_ok r -> at_most_one r -> blanks gap ->
  blanks b1 -> b1 <> [] -> file_name f ->
  parsed (lead ++ wrange_text r ++ gap ++ B "r" ++ b1 ++ f ++ [nl]) [the_command ctread (wrange_start r) zero_address (first_bytes f) []].
Proof. exact read_command. Qed.
Print Assumptions C134_read_partial.
(* C134 refuted, for every r without a file name: it is rejected, although the name of the file being edited
   should be used. *)
Theorem C134_read_alone_refuted : forall lead r gap trail, blanks lead -> wrange_ok r -> blanks gap -> (r = NoAddress -> gap = []) -> blanks trail ->
  rejected (lead ++ wrange_text r ++ gap ++ B "r" ++ trail ++ [nl]).
Proof. exact read_rejected. Qed.
Print Assumptions C134_read_alone_refuted.
(* C134: ! with a command: the first n bytes of a command of n characters. *)
Theorem C134_shell_partial : forall lead s, blanks lead -> one_line s ->
  parsed (lead ++ B "!" ++ s ++ [nl]) [the_command ctshell zero_address zero_address (first_bytes s) []].
Proof. exact shell_command. Qed.
Print Assumptions C134_shell_partial.
(* C134: so names and commands are sent as typed exactly when every character is a single byte. *)
Theorem C134_as_typed_partial : forall s, first_bytes s = s <-> List.length (runes_of s) = List.length s.
Proof. exact text_kept. Qed.
Print Assumptions C134_as_typed_partial.
(* C134 refuted, for every name and command with a character of more than one byte: its end is lost. *)
Theorem C134_cut_refuted : forall lead b1 s, blanks lead -> blanks b1 -> b1 <> [] -> file_name s -> List.length (runes_of s) <> List.length s ->
  ~ parsed (lead ++ B "r" ++ b1 ++ s ++ [nl]) [the_command ctread zero_address zero_address s []] /\
  ~ parsed (lead ++ B "!" ++ s ++ [nl]) [the_command ctshell zero_address zero_address s []].
Proof.
  intros lead b1 s Hl Hb Nb Hf Ne.
  assert (Hs : first_bytes s <> s) by (intros Q; apply text_kept in Q; congruence).
  assert (U : forall buf c d, parsed buf [c] -> parsed buf [d] -> c = d).
  { intros buf c d (t1&P1&S1) (t2&P2&S2). rewrite P1 in P2. injection P2 as <-. rewrite S1 in S2. now injection S2. }
  split; intros P.
  - pose proof (read_command lead NoAddress [] b1 s Hl I I (Forall_nil _) Hb Nb Hf) as Q. cbn [wrange_text app wrange_start] in Q.
    apply Hs. change (c_text (the_command ctread zero_address zero_address (first_bytes s) []) = c_text (the_command ctread zero_address zero_address s [])).
    f_equal. exact (U _ _ _ Q P).
  - assert (O : one_line s) by (destruct Hf as (Nn&c&t&->&_); split; [discriminate|exact Nn]).
    pose proof (shell_command lead s Hl O) as Q.
    apply Hs. change (c_text (the_command ctshell zero_address zero_address (first_bytes s) []) = c_text (the_command ctshell zero_address zero_address s [])).
    f_equal. exact (U _ _ _ Q P).
Qed.
Print Assumptions C134_cut_refuted.
Example C134_nonvacuous :
  parsed (B " 3 kx " ++ [nl]) [the_command ctmark (num_addr 3) zero_address [] [B "x"]] /\
  parsed (B "1,2m$" ++ [nl]) [to_command ctmove (num_addr 1) (num_addr 2) {| a_typ := lLast; a_text := B "$"; a_offset := 0 |}] /\
  rejected (B "1,2m $" ++ [nl]) /\ parsed (B "$r notes" ++ [nl]) [the_command ctread {| a_typ := lLast; a_text := B "$"; a_offset := 0 |} zero_address (B "notes") []] /\
  rejected (B "r" ++ [nl]) /\ parsed (B "! ls -l" ++ [nl]) [the_command ctshell zero_address zero_address (B " ls -l") []] /\
  file_name [ascii_of_N 195; ascii_of_N 169] /\ List.length (runes_of [ascii_of_N 195; ascii_of_N 169]) = 1%nat.
Proof.
  split; [eexists; split; vm_compute; reflexivity|]. split; [eexists; split; vm_compute; reflexivity|]. split; [vm_compute; reflexivity|].
  split; [eexists; split; vm_compute; reflexivity|]. split; [vm_compute; reflexivity|]. split; [eexists; split; vm_compute; reflexivity|]. split; [|reflexivity].
  split; [intros [H|[H|[]]]; discriminate H|]. eexists _, _. split; [reflexivity|]. split; discriminate.
Qed.

(* C135 refuted, for every editor, every set of files and every way of writing one of the commands h, H, P, Q,
   u, E, f, j, l, k, m, t, r and !: the command is accepted; the reply says that it is not implemented; the
   editor and the files stay as they are, and the commands after it are executed as if it had not been there. *)
Theorem C135_not_carried_out_refuted : forall compile capacity errtext l c, unserved l c ->
  parsed (l ++ [nl]) [c] /\
  forall fs o k ed rest, command_loop compile capacity errtext fs o k ed (c :: rest) =
    let '(w, e) := command_loop compile capacity errtext fs o (S k) ed rest in ((B "? (NYI)" ++ [nl]) :: w, e).
Proof.
  intros compile capacity errtext l c H. split; [now apply unserved_parsed|]. intros fs o k ed rest.
  assert (Q : c_typ c <> ctquit /\ forall f, processCommand compile capacity errtext fs f ed c = Val ([], ed, B "? (NYI)")).
  { assert (Z : exists a b d t ps ty, c = {| c_typ := ty; c_start := a; c_end := b; c_dest := d; c_text := t; c_params := ps |} /\
      In ty [cthelp; cthelpMode; ctprompt; ctquitForce; ctundo; cteditForce; ctfilename; ctjoin; ctlist; ctmark; ctmove; ctcopy; ctread; ctshell]).
    { destruct H as [lead x t tr _ Hx Nt _|lead x t tr _ Hx Nt _|lead x t b1 f _ Hx Nt _ _ _|lead r gap x t tr _ _ _ Hx [-> | ->] _| |lead r gap x t a tr _ _ _ _ Hx _ _| | ];
        (eexists _, _, _, _, _, _; split; [reflexivity|]); try (cbn; tauto).
      - cbn [In bare_letter] in Hx. repeat (destruct Hx as [Hx|Hx]; [injection Hx as <- <-; (congruence || (cbn; tauto))|]). destruct Hx.
      - cbn [In file_letter] in Hx. repeat (destruct Hx as [Hx|Hx]; [injection Hx as <- <-; (congruence || (cbn; tauto))|]). destruct Hx.
      - cbn [In file_letter] in Hx. repeat (destruct Hx as [Hx|Hx]; [injection Hx as <- <-; (congruence || (cbn; tauto))|]). destruct Hx.
      - destruct (dest_letter_facts x t Hx) as [[_ ->]|[_ ->]]; cbn; tauto. }
    destruct Z as (a&b&d&t&ps&ty&->&I).
    assert (T : forall f, c_typ (setDefaultAddresses f) = c_typ f).
    { intros f. unfold setDefaultAddresses. destruct (c_typ f) eqn:E; repeat match goal with |- context [if ?x then _ else _] => destruct x end; cbn [c_typ]; congruence. }
    split.
    - cbn [c_typ]. intros ->. cbn in I. repeat (destruct I as [I|I]; [discriminate I|]). destruct I.
    - intros f. unfold processCommand. rewrite T. cbn [c_typ].
      cbn [In] in I. repeat (destruct I as [I|I]; [rewrite <- I; reflexivity|]). destruct I. }
  destruct Q as [N P]. cbn [command_loop]. rewrite P. destruct (c_typ c); try reflexivity. congruence.
Qed.
Print Assumptions C135_not_carried_out_refuted.
(* C135 refuted, for every range and whatever follows: s, g, G, v and V are rejected. *)
Theorem C135_unreadable_refuted : forall lead r gap x rest, blanks lead -> wrange_ok r -> blanks gap -> (r = NoAddress -> gap = []) -> edit_letter x ->
  rejected (lead ++ wrange_text r ++ gap ++ [x] ++ rest).
Proof. exact edit_letter_rejected. Qed.
Print Assumptions C135_unreadable_refuted.
(* C135: and these are all, with s, g, G, v and V, which cannot be typed: whatever the editor, the files
   and the command, it gets that answer and no more, if its type is not among the following; and only then. *)
Definition served_types : list cmdType :=
  [ctnull; ctappend; ctchange; ctdelete; ctedit; ctinsert; ctnumber; ctprint; ctquit; ctwrite; ctlineNumber].
Theorem C135_exactly_partial : forall compile capacity errtext t, ~ In t served_types <->
  forall fs o k ed c rest, c_typ c = t -> command_loop compile capacity errtext fs o k ed (c :: rest) =
    let '(w, e) := command_loop compile capacity errtext fs o (S k) ed rest in ((B "? (NYI)" ++ [nl]) :: w, e).
Proof.
  intros compile capacity errtext t.
  assert (T : forall f, c_typ (setDefaultAddresses f) = c_typ f).
  { intros f. unfold setDefaultAddresses. destruct (c_typ f) eqn:E; repeat match goal with |- context [if ?x then _ else _] => destruct x end; cbn [c_typ]; congruence. }
  split.
  - intros N fs o k ed c rest Hc.
    assert (P : processCommand compile capacity errtext fs (o k) ed c = Val ([], ed, B "? (NYI)")).
    { unfold processCommand. rewrite T, Hc. destruct t; try reflexivity; exfalso; apply N; cbn; tauto. }
    cbn [command_loop]. rewrite P, Hc. destruct t; try reflexivity. exfalso. apply N. cbn; tauto.
  - intros H I.
    set (bad := {| a_typ := lMark; a_text := []; a_offset := 0 |}).
    set (fs := fun n => if beqb n [] then Some (B "x" ++ [nl]) else None).
    specialize (H fs (fun _ => no_faults) 0%nat zero_itor
      {| c_typ := t; c_start := bad; c_end := bad; c_dest := bad; c_text := []; c_params := [] |} [] eq_refl).
    cbn in I. repeat (destruct I as [<-|I]; [cbv in H; discriminate H|]). destruct I.
Qed.
Print Assumptions C135_exactly_partial.
Example C135_nonvacuous : unserved (B " 1,2 j") (the_command ctjoin (num_addr 1) (num_addr 2) [] []) /\
  unserved (B "1,2m3") (to_command ctmove (num_addr 1) (num_addr 2) (num_addr 3)) /\ unserved (B "!date") (the_command ctshell zero_address zero_address (B "date") []) /\
  rejected (B "1,$s/a/b/" ++ [nl]) /\
  unserved (B "Q") (the_command ctquitForce zero_address zero_address [] []) /\
  fst (command_loop (fun _ => None) (fun n => n) [] (fun _ => None) (fun _ => no_faults) 0 demo_ed
    [the_command ctjoin (num_addr 1) (num_addr 2) [] []; the_command ctprint (num_addr 1) (num_addr 1) [] []]) =
    [B "? (NYI)" ++ [nl]; hd [] demo_lines ++ [nl]].
Proof.
  assert (Nk : forall d, is_dec_digit d -> base_ok (Num [d])) by (intros d Hd; split; [constructor; [exact Hd|constructor]|discriminate]).
  assert (Wk : forall d, is_dec_digit d -> waddr_ok (plain (Num [d]))) by (intros d Hd; split; [now apply Nk|now left]).
  assert (D1 : is_dec_digit "1") by (unfold is_dec_digit; vm_compute; split; discriminate).
  assert (D2 : is_dec_digit "2") by (unfold is_dec_digit; vm_compute; split; discriminate).
  assert (D3 : is_dec_digit "3") by (unfold is_dec_digit; vm_compute; split; discriminate).
  assert (Bl : blanks (B " ")) by (constructor; [now left|constructor]).
  assert (Bn : blanks []) by constructor.
  split; [apply (un_range (B " ") (Both (plain (Num (B "1"))) [] "," [] (plain (Num (B "2")))) (B " ") "j" ctjoin []); auto|].
  { cbn [wrange_ok]. repeat split; auto; (apply Wk; assumption) || (now left). }
  { cbn; tauto. }
  split; [apply (un_dest [] (Both (plain (Num (B "1"))) [] "," [] (plain (Num (B "2")))) [] "m" ctmove (plain (Num (B "3"))) []); auto|].
  { cbn [wrange_ok]. repeat split; auto; (apply Wk; assumption) || (now left). }
  { cbn; tauto. }
  { apply Wk, D3. }
  split; [apply (un_shell [] (B "date")); auto; split; [discriminate|cbn; intuition discriminate]|].
  split; [vm_compute; reflexivity|].
  split; [apply (un_bare [] "Q" ctquitForce []); auto; [cbn; tauto|discriminate]|].
  vm_compute. reflexivity.
Qed.
