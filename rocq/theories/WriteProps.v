(* C131: output that cannot be written.  Specification: WriteSpec.v; model: WriteModel.v. *)
From Verif Require Import GoBase GoFacts WriteModel WriteSpec WriteProofs.
From Verif Require CatModel HeadModel CksumModel TsortModel CmpModel DiffModel.

(* Every run, whatever becomes of the writes: they are the same ones, each of them is tried, and the messages and the
   status are those of a run in which all of them succeed. *)
Theorem C131_head_writes : forall w args, exists ws, concat ws = out (HeadModel.head_main w args) /\
  forall s, exec s 0 (head_prog w args) =
    {| out := taken s 0 ws; errout := errout (HeadModel.head_main w args); fin := fin (HeadModel.head_main w args) |}.
Proof. intros w args. apply deaf_runs, head_main_deaf. Qed.
Print Assumptions C131_head_writes.

Theorem C131_cksum_writes : forall fs stdin args, exists ws, concat ws = out (CksumModel.cksum_main fs stdin args) /\
  forall s, exec s 0 (cksum_prog fs stdin args) =
    {| out := taken s 0 ws; errout := errout (CksumModel.cksum_main fs stdin args); fin := fin (CksumModel.cksum_main fs stdin args) |}.
Proof. intros fs stdin args. apply deaf_runs, cksum_main_deaf. Qed.
Print Assumptions C131_cksum_writes.

Theorem C131_cmp_writes : forall w args, exists ws, concat ws = out (CmpModel.cmp_main w args) /\
  forall s, exec s 0 (cmp_prog w args) =
    {| out := taken s 0 ws; errout := errout (CmpModel.cmp_main w args); fin := fin (CmpModel.cmp_main w args) |}.
Proof. intros w args. apply deaf_runs, cmp_main_deaf. Qed.
Print Assumptions C131_cmp_writes.

Theorem C131_tsort_writes : forall perm fs stdin args r, TsortModel.tsort_main perm fs stdin args = Some r ->
  exists g ws, tsort_prog perm fs stdin args = Some g /\ concat ws = out r /\
  forall s, exec s 0 g = {| out := taken s 0 ws; errout := errout r; fin := fin r |}.
Proof.
  intros perm fs stdin args r H. destruct (tsort_main_deaf _ _ _ _ _ H) as (g&G&D).
  destruct (deaf_runs g r D) as (ws&E&X). exists g, ws. now repeat split.
Qed.
Print Assumptions C131_tsort_writes.

Theorem C131_diff_writes : forall ae fs args r, DiffModel.diff_main ae fs args = Some r ->
  exists g ws, diff_prog ae fs args = Some g /\ concat ws = out r /\
  forall s, exec s 0 g = {| out := taken s 0 ws; errout := errout r; fin := fin r |}.
Proof.
  intros ae fs args r H. destruct (diff_main_deaf _ _ _ _ H) as (g&G&D).
  destruct (deaf_runs g r D) as (ws&E&X). exists g, ws. now repeat split.
Qed.
Print Assumptions C131_diff_writes.

(* The claim fails on every run that succeeds: on a full disk nothing is written, nothing is said and the status is the same. *)
Theorem C131_full_disk_refuted :
  (forall w args, exec full_disk 0 (head_prog w args) =
     {| out := []; errout := errout (HeadModel.head_main w args); fin := fin (HeadModel.head_main w args) |}) /\
  (forall fs stdin args, exec full_disk 0 (cksum_prog fs stdin args) =
     {| out := []; errout := errout (CksumModel.cksum_main fs stdin args); fin := fin (CksumModel.cksum_main fs stdin args) |}) /\
  (forall w args, exec full_disk 0 (cmp_prog w args) =
     {| out := []; errout := errout (CmpModel.cmp_main w args); fin := fin (CmpModel.cmp_main w args) |}) /\
  (forall perm fs stdin args r, TsortModel.tsort_main perm fs stdin args = Some r ->
     exists g, tsort_prog perm fs stdin args = Some g /\ exec full_disk 0 g = {| out := []; errout := errout r; fin := fin r |}) /\
  (forall ae fs args r, DiffModel.diff_main ae fs args = Some r ->
     exists g, diff_prog ae fs args = Some g /\ exec full_disk 0 g = {| out := []; errout := errout r; fin := fin r |}).
Proof.
  split; [|split; [|split; [|split]]].
  - intros w args. exact (proj2 (proj2 (deaf_lost _ _ (head_main_deaf w args) full_disk))).
  - intros fs stdin args. exact (proj2 (proj2 (deaf_lost _ _ (cksum_main_deaf fs stdin args) full_disk))).
  - intros w args. exact (proj2 (proj2 (deaf_lost _ _ (cmp_main_deaf w args) full_disk))).
  - intros perm fs stdin args r H. destruct (tsort_main_deaf _ _ _ _ _ H) as (g&G&D). exists g. split; [exact G|].
    exact (proj2 (proj2 (deaf_lost _ _ D full_disk))).
  - intros ae fs args r H. destruct (diff_main_deaf _ _ _ _ H) as (g&G&D). exists g. split; [exact G|].
    exact (proj2 (proj2 (deaf_lost _ _ D full_disk))).
Qed.
Print Assumptions C131_full_disk_refuted.

(* A write that fails once leaves a hole: the line of any one file can be missing between the others, with status 0. *)
Theorem C131_hole_refuted : forall fs stdin content a f b e,
  (forall g, In g (a ++ f :: b) -> g <> B "-" /\ fs g = CksumModel.Reads (content g) None) -> a ++ b <> [] ->
  exec (misses (List.length a) e) 0 (cksum_prog fs stdin (a ++ f :: b)) =
  {| out := out (CksumModel.cksum_main fs stdin (a ++ b)) ; errout := []; fin := Exit 0 |}.
Proof.
  intros fs stdin content a f b e H NE. destruct (a ++ b) as [|z zs] eqn:Z; [congruence|].
  assert (K : forall l, (forall g, In g l -> In g (a ++ f :: b)) -> forall g, In g l -> beqb g (B "-") = false /\ fs g = CksumModel.Reads (content g) None).
  { intros l Hl g I. destruct (H g (Hl g I)) as (N&F). split; [now apply beqb_neq|exact F]. }
  unfold cksum_prog. replace (match a ++ f :: b with [] => [B "-"] | _ => a ++ f :: b end) with (a ++ f :: b) by (destruct a; reflexivity).
  rewrite (cksum_all (a ++ f :: b) fs stdin content (K _ (fun g I => I))). f_equal.
  rewrite map_app. cbn [map]. rewrite taken_misses by (rewrite map_length; lia). rewrite <- concat_app, <- map_app, Z.
  assert (E : forall outs fl, (forall g, In g fl -> In g (a ++ f :: b)) ->
    out (CksumModel.run_files fs stdin outs fl) = outs ++ concat (map (fun g => CksumModel.crc_line (content g) g) fl)).
  { intros outs fl. revert outs. induction fl as [|g fl IH]; intros outs Hl; [cbn; now rewrite app_nil_r|].
    cbn [CksumModel.run_files map concat]. destruct (K (g :: fl) Hl g (or_introl eq_refl)) as (->& ->).
    rewrite IH by (intros; apply Hl; now right). now rewrite <- app_assoc. }
  unfold CksumModel.cksum_main. symmetry. apply (E []). intros g I. rewrite <- Z in I. apply in_app_or in I. apply in_or_app. destruct I; [now left|right; now right].
Qed.
Print Assumptions C131_hole_refuted.

(* cat looks at the result of a write: it stops, what was written is a beginning of what it should have written, and it
   says so, naming the operand and the error ... *)
Theorem C131_cat_partial : forall s w pieces args, honest s -> (forall b, concat (pieces b) = b) ->
  exec s 0 (cat_prog w pieces args) = CatModel.cat_main w args \/
  exists f e, In f (CatModel.filenames args) /\ (exists i p n, s i p = (n, Some e)) /\
    errout (exec s 0 (cat_prog w pieces args)) =
      B "Error encountered while attempting to read from " ++ f ++ B ": " ++ e ++ [nl] /\
    is_prefix (out (exec s 0 (cat_prog w pieces args))) (out (CatModel.cat_main w args)).
Proof.
  intros s w pieces args Ho Pc. destruct (cat_runs s w pieces Ho Pc (CatModel.filenames args) 0 0) as (F&[[O E]|(f&e&I&(i&p&n&_&X)&E&P)]);
    fold (cat_prog w pieces args) in *; unfold CatModel.cat_main; destruct (CatModel.cat_loop w 0 (CatModel.filenames args)) as [o er]; cbn [fst snd] in *.
  - left. now apply rr_eq.
  - right. exists f, e. split; [exact I|]. split; [now exists i, p, n|]. split; [exact E|exact P].
Qed.
Print Assumptions C131_cat_partial.

(* ... but its status is 0 all the same. *)
Theorem C131_cat_status_refuted : forall s w pieces args, honest s -> (forall b, concat (pieces b) = b) ->
  fin (exec s 0 (cat_prog w pieces args)) = Exit 0.
Proof. intros s w pieces args Ho Pc. exact (proj1 (cat_runs s w pieces Ho Pc (CatModel.filenames args) 0 0)). Qed.
Print Assumptions C131_cat_status_refuted.

(* When the output takes nothing after its first error, what was written is a beginning of the right output. *)
Theorem C131_prefix_partial : forall s, honest s -> broken_for_good s ->
  (forall w args, is_prefix (out (exec s 0 (head_prog w args))) (out (HeadModel.head_main w args))) /\
  (forall fs stdin args, is_prefix (out (exec s 0 (cksum_prog fs stdin args))) (out (CksumModel.cksum_main fs stdin args))) /\
  (forall w args, is_prefix (out (exec s 0 (cmp_prog w args))) (out (CmpModel.cmp_main w args))) /\
  (forall perm fs stdin args r, TsortModel.tsort_main perm fs stdin args = Some r ->
     exists g, tsort_prog perm fs stdin args = Some g /\ is_prefix (out (exec s 0 g)) (out r)) /\
  (forall ae fs args r, DiffModel.diff_main ae fs args = Some r ->
     exists g, diff_prog ae fs args = Some g /\ is_prefix (out (exec s 0 g)) (out r)).
Proof.
  intros s Ho Br. split; [|split; [|split; [|split]]].
  - intros w args. now apply deaf_prefix; [apply head_main_deaf|..].
  - intros fs stdin args. now apply deaf_prefix; [apply cksum_main_deaf|..].
  - intros w args. now apply deaf_prefix; [apply cmp_main_deaf|..].
  - intros perm fs stdin args r H. destruct (tsort_main_deaf _ _ _ _ _ H) as (g&G&D). exists g. split; [exact G|]. now apply deaf_prefix.
  - intros ae fs args r H. destruct (diff_main_deaf _ _ _ _ H) as (g&G&D). exists g. split; [exact G|]. now apply deaf_prefix.
Qed.
Print Assumptions C131_prefix_partial.

(* A disk that takes five bytes: cat of two files writes a beginning of the first and says so; head of the same file writes
   one line and the beginning of the next and says nothing; cksum loses everything.  Both outputs meet the hypotheses. *)
Definition small_disk : output :=
  fun i p => match i, p with 0, _ => if 5 <? List.length p then (5, Some (B "no space left")) else (List.length p, None)
                        | _, _ => (0, Some (B "no space left")) end.
Example C131_nonvacuous :
  let content := B "abc" ++ [nl] ++ B "defg" ++ [nl] in
  let cw := {| CatModel.opens := fun _ => inl (content, None); CatModel.stdin_at := fun _ => ([], None) |} in
  let hw := {| HeadModel.opens := fun _ => Some (content, None); HeadModel.stdin_at := fun _ => ([], None) |} in
  honest small_disk /\ broken_for_good small_disk /\ honest full_disk /\
  exec small_disk 0 (cat_prog cw (fun b => [b]) [B "x"; B "y"]) =
    {| out := B "abc" ++ [nl] ++ B "d"; errout := B "Error encountered while attempting to read from x: no space left" ++ [nl]; fin := Exit 0 |} /\
  exec small_disk 0 (head_prog hw [B "x"]) = {| out := B "abc" ++ [nl]; errout := []; fin := Exit 0 |} /\
  out (HeadModel.head_main hw [B "x"]) = content /\
  exec full_disk 0 (cksum_prog (fun _ => CksumModel.Reads content None) ([], None) [B "x"; B "y"]) = {| out := []; errout := []; fin := Exit 0 |}.
Proof.
  cbv zeta. split; [|split; [|split; [|split; [|split; [|split]]]]].
  - intros [|i] p n; unfold small_disk; [destruct (5 <? List.length p); intros H; [discriminate H|injection H as <-; lia]|intros H; discriminate H].
  - intros i p n e _ [|j] q L; [lia|reflexivity].
  - intros i p n H. discriminate H.
  - reflexivity.
  - reflexivity.
  - reflexivity.
  - reflexivity.
Qed.
