From Verif Require Import GoBase GoFacts DiffModel DiffSpec DiffProofs.

(* ---------- reading numbers and headers ---------- *)
Definition nondigit_head (b : bytes) : Prop :=
  match b with [] => True | c :: _ => digit_of c = None end.

Lemma take_digits_app : forall d rest, (forall c, In c d -> is_digit c) -> nondigit_head rest ->
  take_digits (d ++ rest) = (d, rest).
Proof.
  induction d as [|c d IH]; intros rest Hd Hr; simpl.
  - destruct rest as [|x r]; auto. simpl. simpl in Hr. rewrite Hr. reflexivity.
  - destruct (Hd c) as [v Hv]; [left; auto|]. rewrite Hv, IH; auto. intros; apply Hd; right; auto.
Qed.

Lemma read_num_ntoa : forall n rest, nondigit_head rest ->
  read_num (ntoa n ++ rest) = Some (N.of_nat n, rest).
Proof.
  intros n rest H. unfold read_num. rewrite take_digits_app; auto.
  - destruct (ntoa n) eqn:E; [now apply ntoa_nonempty in E|]. rewrite <- E.
    rewrite ntoa_utoa, dec_val_utoa. reflexivity.
  - apply ntoa_digits.
Qed.

Definition range_end (b : bytes) : Prop :=
  match b with [] => True | c :: _ => digit_of c = None /\ c <> ","%char end.

Lemma read_range_one : forall n rest, range_end rest ->
  read_range (ntoa n ++ rest) = Some (N.of_nat n, N.of_nat n, rest).
Proof.
  intros n rest H. unfold read_range. rewrite read_num_ntoa.
  - destruct rest as [|c r]; auto. destruct H as [_ H]. apply Ascii.eqb_neq in H. now rewrite H.
  - destruct rest; simpl; auto. apply H.
Qed.

Lemma read_range_fmt : forall s k rest, k > 0 -> range_end rest ->
  read_range (fmt_range s k ++ rest) = Some (N.of_nat s + 1, N.of_nat s + N.of_nat k, rest)%N.
Proof.
  intros s k rest Hk H. unfold fmt_range. destruct (1 <? k) eqn:E.
  - rewrite <- !app_assoc. unfold read_range. rewrite read_num_ntoa by reflexivity.
    cbn [app B list_ascii_of_string Ascii.eqb eqb]. simpl.
    rewrite read_num_ntoa by (destruct rest; simpl; auto; apply H).
    f_equal. f_equal. f_equal; lia.
  - rewrite read_range_one by auto. apply Nat.ltb_ge in E. f_equal. f_equal. f_equal; lia.
Qed.

Lemma range_end_op : forall c r, In c ["a"; "d"; "c"]%char -> range_end (c :: r).
Proof. intros c r H. simpl in H. destruct H as [<-|[<-|[<-|[]]]]; split; (reflexivity || discriminate). Qed.

Lemma read_header_a : forall o n k, k > 0 ->
  read_header (ntoa o ++ B "a" ++ fmt_range n k)
    = Some (N.of_nat o, N.of_nat o, OpA, N.of_nat n + 1, N.of_nat n + N.of_nat k)%N.
Proof.
  intros. unfold read_header. change (B "a" ++ fmt_range n k) with ("a"%char :: fmt_range n k).
  rewrite read_range_one by (apply range_end_op; simpl; auto).
  rewrite <- (app_nil_r (fmt_range n k)). rewrite read_range_fmt by (simpl; auto). reflexivity.
Qed.

Lemma read_header_d : forall o n k, k > 0 ->
  read_header (fmt_range o k ++ B "d" ++ ntoa n)
    = Some (N.of_nat o + 1, N.of_nat o + N.of_nat k, OpD, N.of_nat n, N.of_nat n)%N.
Proof.
  intros. unfold read_header. change (B "d" ++ ntoa n) with ("d"%char :: ntoa n).
  rewrite read_range_fmt by (auto || (apply range_end_op; simpl; auto)).
  rewrite <- (app_nil_r (ntoa n)). rewrite read_range_one by (simpl; auto). reflexivity.
Qed.

Lemma read_header_c : forall o n k k2, k > 0 -> k2 > 0 ->
  read_header (fmt_range o k ++ B "c" ++ fmt_range n k2)
    = Some (N.of_nat o + 1, N.of_nat o + N.of_nat k, OpC, N.of_nat n + 1, N.of_nat n + N.of_nat k2)%N.
Proof.
  intros. unfold read_header. change (B "c" ++ fmt_range n k2) with ("c"%char :: fmt_range n k2).
  rewrite read_range_fmt by (auto || (apply range_end_op; simpl; auto)).
  rewrite <- (app_nil_r (fmt_range n k2)). rewrite read_range_fmt by (simpl; auto). reflexivity.
Qed.

(* ---------- reading hunks ---------- *)
(* the first line does not start with ch *)
Definition unmarked (ch : ascii) (ls : list bytes) : Prop :=
  match ls with (a :: _) :: _ => a <> ch | _ => True end.

Lemma take_marked_stop : forall ch ls, unmarked ch ls -> take_marked ch ls = ([], ls).
Proof.
  intros ch ls H. destruct ls as [|l r]; auto. destruct l as [|a l]; auto.
  destruct l as [|b l]; auto. simpl in *. apply Ascii.eqb_neq in H. now rewrite H.
Qed.

Lemma take_marked_map : forall ch vals rest, unmarked ch rest ->
  take_marked ch (map (fun l => ch :: " "%char :: l) vals ++ rest) = (vals, rest).
Proof.
  induction vals as [|v vals IH]; intros rest H; simpl; [now apply take_marked_stop|].
  rewrite Ascii.eqb_refl. simpl. now rewrite IH.
Qed.

Lemma fmt_range_head : forall s k, exists c l, fmt_range s k = c :: l /\ is_digit c.
Proof.
  intros s k. unfold fmt_range.
  assert (H : exists c l, ntoa (s + 1) = c :: l /\ is_digit c).
  { destruct (ntoa (s + 1)) as [|c l] eqn:E; [now apply ntoa_nonempty in E|].
    exists c, l. split; auto. apply (ntoa_digits (s + 1)). rewrite E. left; auto. }
  destruct H as (c&l&->&Hc). destruct (1 <? k); simpl; eauto.
Qed.

Lemma ntoa_head : forall n, exists c l, ntoa n = c :: l /\ is_digit c.
Proof.
  intros n. destruct (ntoa n) as [|c l] eqn:E; [now apply ntoa_nonempty in E|].
  exists c, l. split; auto. apply (ntoa_digits n). rewrite E. left; auto.
Qed.

Lemma output_unmarked : forall cs o n ch, digit_of ch = None -> unmarked ch (output_lines o n cs).
Proof.
  assert (D : forall c ch, is_digit c -> digit_of ch = None -> c <> ch).
  { intros c ch [d H] H2 ->. congruence. }
  induction cs as [|c rest IH]; intros o n ch H; [exact I|]. cbn [output_lines].
  destruct (kind c).
  - auto.
  - destruct (ntoa_head o) as (x&l&->&Hx). simpl. auto.
  - destruct (fmt_range_head o (length (values c))) as (x&l&->&Hx).
    destruct rest as [|c2 r]; [simpl; auto|]. destruct (kind c2); simpl; auto.
Qed.

Fixpoint hunks_of (o n : nat) (cs : list comparison) : list hunk :=
  match cs with
  | [] => []
  | c :: rest =>
      let k := length (values c) in
      match kind c with
      | Equal => hunks_of (o + k) (n + k) rest
      | Add => {| hop := OpA; ol1 := N.of_nat o; ol2 := N.of_nat o; nl1 := N.of_nat n + 1;
                  nl2 := N.of_nat n + N.of_nat k; removed := []; added := values c |}
               :: hunks_of o (n + k) rest
      | Minus =>
          let d := {| hop := OpD; ol1 := N.of_nat o + 1; ol2 := N.of_nat o + N.of_nat k;
                      nl1 := N.of_nat n; nl2 := N.of_nat n; removed := values c; added := [] |}
                   :: hunks_of (o + k) n rest in
          match rest with
          | c2 :: rest' =>
              match kind c2 with
              | Add => {| hop := OpC; ol1 := N.of_nat o + 1; ol2 := N.of_nat o + N.of_nat k;
                          nl1 := N.of_nat n + 1; nl2 := N.of_nat n + N.of_nat (length (values c2));
                          removed := values c; added := values c2 |}
                       :: hunks_of (o + k) (n + length (values c2)) rest'
              | _ => d
              end
          | [] => d
          end
      end
  end%N.

Lemma len_pos : forall {A} (l : list A), l <> [] -> length l > 0.
Proof. intros A l. destruct l; [congruence|simpl; lia]. Qed.

Lemma map_lt : forall vs, map (fun l => B "< " ++ l) vs = map (fun l => "<"%char :: " "%char :: l) vs.
Proof. reflexivity. Qed.
Lemma map_gt : forall vs, map (fun l => B "> " ++ l) vs = map (fun l => ">"%char :: " "%char :: l) vs.
Proof. reflexivity. Qed.

Lemma read_hunks_output : forall m cs o n fuel, length cs <= m -> changed_nonempty cs ->
  length (output_lines o n cs) <= fuel ->
  read_hunks fuel (output_lines o n cs) = Some (hunks_of o n cs).
Proof.
  induction m as [|m IH]; intros cs o n fuel Hm Hne Hf.
  { destruct cs; [|simpl in Hm; lia]. destruct fuel; reflexivity. }
  destruct cs as [|c rest]. { destruct fuel; reflexivity. }
  inversion Hne as [|? ? Hc Hrest]; subst. simpl in Hm.
  assert (DEL : kind c = Minus ->
    forall fuel, length ((fmt_range o (length (values c)) ++ B "d" ++ ntoa n)
              :: map (fun l => B "< " ++ l) (values c)
              ++ output_lines (o + length (values c)) n rest) <= fuel ->
    read_hunks fuel ((fmt_range o (length (values c)) ++ B "d" ++ ntoa n)
              :: map (fun l => B "< " ++ l) (values c)
              ++ output_lines (o + length (values c)) n rest) =
     Some ({| hop := OpD; ol1 := N.of_nat o + 1; ol2 := N.of_nat o + N.of_nat (length (values c));
                      nl1 := N.of_nat n; nl2 := N.of_nat n; removed := values c; added := [] |}
                   :: hunks_of (o + length (values c)) n rest)%N).
  { clear fuel Hf. intros _ fuel Hf. destruct fuel as [|f]; [simpl in Hf; lia|].
    cbn [read_hunks]. rewrite read_header_d by (now apply len_pos).
    rewrite map_lt in *. rewrite take_marked_map by (now apply output_unmarked).
    rewrite take_marked_stop by (now apply output_unmarked).
    rewrite IH; auto; [lia|]. cbn [length] in Hf. rewrite app_length in Hf. unfold bytes in *. lia. }
  cbn [output_lines hunks_of] in *. destruct (kind c) eqn:Ek.
  - apply IH; auto. lia.
  - destruct fuel as [|f]; [simpl in Hf; lia|].
    cbn [read_hunks]. rewrite read_header_a by (now apply len_pos).
    rewrite map_gt in *.
    assert (U : unmarked "<" (map (fun l => ">"%char :: " "%char :: l) (values c) ++ output_lines o (n + length (values c)) rest)).
    { destruct (values c); simpl; [now apply output_unmarked|discriminate]. }
    rewrite take_marked_stop by auto.
    rewrite take_marked_map by (now apply output_unmarked).
    rewrite IH; auto; [lia|]. cbn [length] in Hf. rewrite app_length in Hf. unfold bytes in *. lia.
  - destruct rest as [|c2 rest']; [apply DEL; auto|].
    destruct (kind c2) eqn:Ek2; [apply DEL; auto| |apply DEL; auto].
    inversion Hrest as [|? ? Hc2 Hrest']; subst.
    destruct fuel as [|f]; [simpl in Hf; lia|].
    cbn [read_hunks]. rewrite read_header_c by (now apply len_pos).
    rewrite map_lt, map_gt in *.
    rewrite take_marked_map by (simpl; discriminate).
    cbn [app]. replace (beqb (B "---") (B "---")) with true by reflexivity.
    rewrite take_marked_map by (now apply output_unmarked).
    simpl in Hm. rewrite IH; auto; [lia|].
    cbn [length app] in Hf. rewrite !app_length in Hf. cbn [length] in Hf. rewrite !app_length in Hf. unfold bytes in *. lia.
Qed.

(* ---------- the hunks describe the change ---------- *)
Lemma nlen_app : forall {A} (a b : list A), nlen (a ++ b) = (nlen a + nlen b)%N.
Proof. intros. unfold nlen. rewrite app_length. lia. Qed.

Lemma patches_skip : forall hs o n run old new,
  patches hs (o + nlen run)%N (n + nlen run)%N old new -> patches hs o n (run ++ old) (run ++ new).
Proof.
  intros hs o n run old new H. inversion H; subst.
  - apply patches_nil.
  - rewrite !(app_assoc run common).
    apply patches_hunk; rewrite !nlen_app, !N.add_assoc; auto.
Qed.

Lemma patches_hunk0 : forall h hs o n old' new',
  numbered h o n ->
  patches hs (o + nlen (removed h))%N (n + nlen (added h))%N old' new' ->
  patches (h :: hs) o n (removed h ++ old') (added h ++ new').
Proof.
  intros. apply (patches_hunk h hs o n [] old' new'); change (@nlen bytes []) with 0%N; rewrite ?N.add_0_r; auto.
Qed.

Lemma hunks_patch : forall m cs o n, length cs <= m -> changed_nonempty cs ->
  patches (hunks_of o n cs) (N.of_nat o) (N.of_nat n) (assemble_old cs) (assemble_new cs).
Proof.
  induction m as [|m IH]; intros cs o n Hm Hne.
  { destruct cs; [|simpl in Hm; lia]. apply (patches_nil _ _ []). }
  destruct cs as [|c rest]. { apply (patches_nil _ _ []). }
  inversion Hne as [|? ? Hc Hrest]; subst. simpl in Hm.
  assert (DEL : patches ({| hop := OpD; ol1 := N.of_nat o + 1; ol2 := N.of_nat o + N.of_nat (length (values c));
                      nl1 := N.of_nat n; nl2 := N.of_nat n; removed := values c; added := [] |}
                   :: hunks_of (o + length (values c)) n rest) (N.of_nat o) (N.of_nat n)
                   (values c ++ assemble_old rest) (assemble_new rest)).
  { match goal with |- patches (?h :: _) _ _ _ _ => apply (patches_hunk0 h) end.
    - unfold numbered; simpl; repeat split; auto.
    - simpl. change (@nlen bytes []) with 0%N. rewrite N.add_0_r. unfold nlen.
      rewrite <- Nat2N.inj_add. apply IH; auto. lia. }
  cbn [hunks_of]. unfold assemble_old, assemble_new in *. cbn [flat_map].
  destruct (kind c) eqn:Ek.
  - apply patches_skip. unfold nlen. rewrite <- !Nat2N.inj_add. apply IH; auto. lia.
  - match goal with |- patches (?h :: _) _ _ _ _ => apply (patches_hunk0 h) end.
    + unfold numbered; simpl; repeat split; auto.
    + simpl. change (@nlen bytes []) with 0%N. rewrite N.add_0_r. unfold nlen.
      rewrite <- Nat2N.inj_add. apply IH; auto. lia.
  - destruct rest as [|c2 rest']; [exact DEL|].
    destruct (kind c2) eqn:Ek2; [exact DEL| |exact DEL].
    inversion Hrest as [|? ? Hc2 Hrest']; subst.
    cbn [flat_map]. rewrite Ek2. rewrite app_nil_l.
    match goal with |- patches (?h :: _) _ _ _ _ => apply (patches_hunk0 h) end.
    + unfold numbered; simpl; repeat split; auto.
    + simpl. unfold nlen. rewrite <- !Nat2N.inj_add. apply IH; auto. simpl in Hm. lia.
Qed.

(* ---------- printed lines contain no newline ---------- *)
Definition no_newline (l : list bytes) : Prop := forall x, In x l -> ~ In nl x.

Lemma digit_not_nl : forall c, is_digit c -> c <> nl.
Proof. intros c [d H] ->. discriminate. Qed.

Lemma ntoa_no_nl : forall n, ~ In nl (ntoa n).
Proof. intros n H. apply ntoa_digits in H. now apply digit_not_nl in H. Qed.

Lemma fmt_range_no_nl : forall s k, ~ In nl (fmt_range s k).
Proof.
  intros s k H. unfold fmt_range in H. destruct (1 <? k).
  - apply in_app_or in H as [H|H]; [now apply ntoa_no_nl in H|].
    apply in_app_or in H as [[H|[]]|H]; [discriminate|now apply ntoa_no_nl in H].
  - now apply ntoa_no_nl in H.
Qed.

Lemma marked_no_nl : forall p vs x, ~ In nl p -> no_newline vs -> In x (map (fun l => p ++ l) vs) -> ~ In nl x.
Proof.
  intros p vs x Hp Hvs H Hx. apply in_map_iff in H as (l&<-&Hl).
  apply in_app_or in Hx as [Hx|Hx]; auto. now apply (Hvs l).
Qed.

Lemma output_no_nl : forall cs o n, Forall (fun c => no_newline (values c)) cs -> no_newline (output_lines o n cs).
Proof.
  assert (P1 : ~ In nl (B "< ")) by (intros [H|[H|[]]]; discriminate).
  assert (P2 : ~ In nl (B "> ")) by (intros [H|[H|[]]]; discriminate).
  assert (H3 : forall a m b, ~ In nl a -> ~ In nl m -> ~ In nl b -> ~ In nl (a ++ m ++ b)).
  { intros. rewrite !in_app_iff. tauto. }
  assert (P3 : forall c, c <> nl -> ~ In nl [c]) by (intros c H [E|[]]; auto).
  fix IH 1. intros cs o n Hn x H. destruct cs as [|c rest]; [contradiction|].
  assert (Hc : no_newline (values c)) by (inversion Hn; auto).
  assert (Hr : Forall (fun c => no_newline (values c)) rest) by (inversion Hn; auto).
  cbn [output_lines] in H. destruct (kind c).
  - eapply IH; eauto.
  - destruct H as [<-|H].
    + apply H3; [apply ntoa_no_nl|apply P3; discriminate|apply fmt_range_no_nl].
    + apply in_app_or in H as [H|H]; [|eapply (IH rest); eauto].
      eapply marked_no_nl; [apply P2|apply Hc|exact H].
  - assert (D : In x ((fmt_range o (length (values c)) ++ B "d" ++ ntoa n)
       :: map (fun l => B "< " ++ l) (values c) ++ output_lines (o + length (values c)) n rest) -> ~ In nl x).
    { intros [<-|H'].
      - apply H3; [apply fmt_range_no_nl|apply P3; discriminate|apply ntoa_no_nl].
      - apply in_app_or in H' as [H'|H']; [|eapply (IH rest); eauto].
        eapply marked_no_nl; [apply P1|apply Hc|exact H']. }
    destruct rest as [|c2 rest']; auto. destruct (kind c2); auto. clear D.
    assert (Hc2 : no_newline (values c2)) by (inversion Hr; auto).
    assert (Hr' : Forall (fun c => no_newline (values c)) rest') by (inversion Hr; auto).
    destruct H as [<-|H].
    { apply H3; [apply fmt_range_no_nl|apply P3; discriminate|apply fmt_range_no_nl]. }
    apply in_app_or in H as [H|H].
    { eapply marked_no_nl; [apply P1|apply Hc|exact H]. }
    apply in_app_or in H as [H|H].
    { destruct H as [<-|[]]. vm_compute. intros [E|[E|[E|[]]]]; discriminate. }
    apply in_app_or in H as [H|H]; [|eapply (IH rest'); eauto].
    eapply marked_no_nl; [apply P2|apply Hc2|exact H].
Qed.

Lemma assemble_no_nl : forall cs, no_newline (assemble_old cs) -> no_newline (assemble_new cs) ->
  Forall (fun c => no_newline (values c)) cs.
Proof.
  unfold no_newline. induction cs as [|c cs IH]; intros Ho Hn; constructor.
  - intros x Hx. unfold assemble_old, assemble_new in *. cbn [flat_map] in *.
    destruct (kind c); [apply Ho|apply Hn|apply Ho]; apply in_or_app; auto.
  - apply IH; intros x Hx; [apply Ho|apply Hn]; unfold assemble_old, assemble_new in *; cbn [flat_map];
      apply in_or_app; auto.
Qed.

(* ---------- patches means what the executable patch does, and can be reversed ---------- *)
Lemma numbered_reverse : forall h o n, numbered h o n -> numbered (reverse_hunk h) n o.
Proof.
  intros h o n. unfold numbered, reverse_hunk. simpl. destruct (hop h); simpl; tauto.
Qed.

Lemma patches_reverse : forall hs o n old new, patches hs o n old new ->
  patches (map reverse_hunk hs) n o new old.
Proof.
  induction 1; simpl.
  - apply patches_nil.
  - apply (patches_hunk (reverse_hunk h)); simpl; auto. now apply numbered_reverse.
Qed.

Lemma firstn_exact : forall {A} (a b : list A), firstn (length a) (a ++ b) = a.
Proof. intros. rewrite firstn_app, firstn_all, Nat.sub_diag. simpl. apply app_nil_r. Qed.
Lemma skipn_exact : forall {A} (a b : list A), skipn (length a) (a ++ b) = b.
Proof. intros. rewrite skipn_app, skipn_all, Nat.sub_diag. reflexivity. Qed.

Lemma patches_apply : forall hs o n old new, patches hs o n old new -> apply_patch hs o old = Some new.
Proof.
  induction 1 as [|h hs o n common old' new' Hnum Hp IH]; auto.
  cbn [apply_patch].
  assert (St : match hop h with OpA => ol1 h | _ => ol1 h - 1 end%N = (o + nlen common)%N).
  { unfold numbered in Hnum. destruct (hop h); lia. }
  rewrite St. replace (o <=? o + nlen common)%N with true by lia.
  replace (N.to_nat (o + nlen common - o)) with (length common) by (unfold nlen; lia).
  rewrite firstn_exact, skipn_exact, firstn_exact, skipn_exact.
  replace (length common <=? length (common ++ removed h ++ old')) with true
    by (symmetry; apply Nat.leb_le; rewrite app_length; lia).
  destruct (list_eq_dec (list_eq_dec ascii_dec) (removed h) (removed h)); [|congruence].
  simpl. rewrite IH. reflexivity.
Qed.

Lemma diff_is_patch : forall old new,
  (forall l, In l old -> ~ In nl l) -> (forall l, In l new -> ~ In nl l) ->
  exists cs hs, diff old new = Some (Ok cs) /\ read_diff (format cs) = Some hs /\
    patches hs 0 0 old new /\
    apply_patch hs 0 old = Some new /\ apply_patch (map reverse_hunk hs) 0 new = Some old.
Proof.
  intros old new Ho Hn. destruct (diff_total old new) as (cs&E&T).
  destruct (diff_tree_assemble _ _ _ T) as [A1 A2]. pose proof (diff_tree_nonempty _ _ _ T) as Ne.
  exists cs, (hunks_of 0 0 cs).
  assert (P : patches (hunks_of 0 0 cs) 0 0 old new).
  { rewrite <- A1, <- A2. apply (hunks_patch (length cs) cs 0 0); auto. }
  split; auto. split.
  - unfold read_diff. destruct (format cs) eqn:F.
    + apply format_nil_iff in F.
      pose proof (read_hunks_output (length cs) cs 0 0 0) as R. rewrite F in R.
      specialize (R (le_n _) Ne (le_n _)). exact R.
    + rewrite <- F. unfold format. rewrite split_join.
      * apply (read_hunks_output (length cs)); auto.
      * intros H. unfold format in F. rewrite H in F. discriminate.
      * apply output_no_nl. apply assemble_no_nl; rewrite ?A1, ?A2; auto.
  - split; auto. split.
    + eapply patches_apply; eauto.
    + eapply patches_apply. apply patches_reverse. eauto.
Qed.
