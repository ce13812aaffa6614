(* C169: cat on groups of operands. *)
From Verif Require Import GoBase GoFacts CatModel.

(* standard input as it is when n operands have been read *)
Definition later (n : nat) (w : world) : world := {| opens := opens w; stdin_at := fun i => stdin_at w (n + i) |}.
(* the number of operands among the arguments *)
Definition operand_count (args : list bytes) : nat := length (filter (fun a => negb (beqb a (B "-u"))) args).

Lemma loop_later : forall fs w n i, cat_loop w (n + i) fs = cat_loop (later n w) i fs.
Proof.
  induction fs as [|f fs IH]; intros w n i; [reflexivity|]. cbn [cat_loop].
  change (write_file w (n + i) f) with (write_file (later n w) i f).
  destruct (write_file (later n w) i f) as [o [e|]]; [reflexivity|].
  rewrite <- IH. replace (n + S i) with (S (n + i)) by lia. reflexivity.
Qed.
Lemma loop_app : forall a b w i, cat_loop w i (a ++ b) =
  match snd (cat_loop w i a) with
  | [] => (fst (cat_loop w i a) ++ fst (cat_loop w (length a + i) b), snd (cat_loop w (length a + i) b))
  | _ => cat_loop w i a
  end.
Proof.
  induction a as [|f a IH]; intros b w i.
  - cbn [app cat_loop fst snd length Nat.add]. now destruct (cat_loop w i b).
  - cbn [app cat_loop]. destruct (write_file w i f) as [o [e|]]; [reflexivity|].
    rewrite IH. destruct (cat_loop w (S i) a) as [o1 e1]. cbn [fst snd length].
    replace (length a + S i) with (S (length a) + i) by lia.
    destruct e1; [|reflexivity]. now rewrite <- app_assoc.
Qed.
Lemma filenames_some : forall a, operand_count a <> 0 -> filenames a = filter (fun a => negb (beqb a (B "-u"))) a.
Proof. intros a H. unfold filenames, operand_count in *. destruct (filter _ a); [now elim H|reflexivity]. Qed.
Lemma filenames_app : forall a b, operand_count a <> 0 -> operand_count b <> 0 -> filenames (a ++ b) = filenames a ++ filenames b.
Proof.
  intros a b Ha Hb. rewrite (filenames_some a), (filenames_some b) by auto. rewrite filenames_some.
  - apply filter_app.
  - unfold operand_count in *. rewrite filter_app, app_length. lia.
Qed.

(* C169: the operands can be given in groups, to one run of cat after the other, as long as nothing fails; *)
Theorem C169_groups : forall w a b, operand_count a <> 0 -> operand_count b <> 0 -> errout (cat_main w a) = [] ->
  cat_main w (a ++ b) =
    {| out := out (cat_main w a) ++ out (cat_main (later (operand_count a) w) b);
       errout := errout (cat_main (later (operand_count a) w) b); fin := Exit 0 |}.
Proof.
  intros w a b Ha Hb E. unfold cat_main in *. rewrite filenames_app by auto. rewrite loop_app.
  destruct (cat_loop w 0 (filenames a)) as [o e]. cbn [fst snd errout out] in *. subst e.
  rewrite loop_later. replace (length (filenames a)) with (operand_count a) by (rewrite filenames_some; auto).
  now destruct (cat_loop (later (operand_count a) w) 0 (filenames b)).
Qed.
Print Assumptions C169_groups.
(* after a failure in the first group the second makes no difference. *)
Theorem C169_after_failure : forall w a b, operand_count a <> 0 -> errout (cat_main w a) <> [] ->
  cat_main w (a ++ b) = cat_main w a.
Proof.
  intros w a b Ha E. unfold cat_main in *.
  replace (filenames (a ++ b)) with (filenames a ++ filter (fun a => negb (beqb a (B "-u"))) b).
  - rewrite loop_app. destruct (cat_loop w 0 (filenames a)) as [o [|x e]]; [now elim E|reflexivity].
  - rewrite filenames_some by auto. rewrite filenames_some; [now rewrite filter_app|].
    unfold operand_count in *. rewrite filter_app, app_length. lia.
Qed.
Print Assumptions C169_after_failure.
(* -u makes no difference anywhere. *)
Theorem C169_u : forall w a b, cat_main w (a ++ B "-u" :: b) = cat_main w (a ++ b).
Proof. intros w a b. unfold cat_main, filenames. now rewrite !filter_app. Qed.
Print Assumptions C169_u.
(* A run without operands reads standard input, as if - had been given. *)
Theorem C169_no_operand : forall w a, operand_count a = 0 -> cat_main w a = cat_main w [B "-"].
Proof. intros w a H. unfold cat_main, filenames, operand_count in *. destruct (filter _ a); [reflexivity|discriminate]. Qed.
Print Assumptions C169_no_operand.

Example C169_nonvacuous :
  let w := {| opens := fun f => if beqb f (B "a") then inl (B "A", None) else if beqb f (B "b") then inl (B "B", None) else inr (B "no such file");
              stdin_at := fun i => match i with 1 => (B "in", None) | _ => ([], None) end |} in
  operand_count [B "-u"; B "a"; B "-"] = 2 /\ errout (cat_main w [B "-u"; B "a"; B "-"]) = [] /\
  out (cat_main w ([B "-u"; B "a"; B "-"] ++ [B "b"; B "zz"; B "a"])) = B "AinB" /\
  errout (cat_main w ([B "zz"] ++ [B "a"])) <> [] /\ out (cat_main w [B "zz"; B "a"]) = [].
Proof. vm_compute. repeat split; discriminate. Qed.
