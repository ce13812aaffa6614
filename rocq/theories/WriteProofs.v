From Verif Require Import GoBase GoFacts WriteModel WriteSpec.
From Verif Require CatModel HeadModel CksumModel TsortModel CmpModel DiffModel.

Lemma rr_eq : forall a b : run_result, out a = out b -> errout a = errout b -> fin a = fin b -> a = b.
Proof. intros [] []. simpl. intros -> -> ->. reflexivity. Qed.

(* g makes the writes ws whatever becomes of them, then ends with [er] on standard error and [e] *)
Definition does (g : prog) (ws : list bytes) (er : bytes) (e : ending) : Prop :=
  forall s i, exec s i g = {| out := taken s i ws; errout := er; fin := e |}.

Lemma does_end : forall e, does (End e) [] [] e.
Proof. intros e s i. reflexivity. Qed.
Lemma does_say : forall m e, does (Say m (End e)) [] m e.
Proof. intros m e s i. simpl. now rewrite app_nil_r. Qed.
Lemma does_put : forall p g ws er e, does g ws er e -> does (put p g) (p :: ws) er e.
Proof.
  intros p g ws er e H s i. unfold put. cbn [exec taken]. destruct (s i p) as [n x]. rewrite (H s (S i)). reflexivity.
Qed.
Lemma put_lines_does : forall l g ws er e, does g ws er e -> does (put_lines l g) (map (fun x => x ++ [nl]) l ++ ws) er e.
Proof. induction l as [|x l IH]; intros g ws er e H; [exact H|]. simpl. apply does_put. now apply IH. Qed.

(* g does what r says, and looks at no result *)
Definition deaf (g : prog) (r : run_result) : Prop := exists ws, does g ws (errout r) (fin r) /\ concat ws = out r.

Lemma cksum_deaf : forall files fs stdin outs, exists ws,
  does (cksum_calls fs stdin files) ws (errout (CksumModel.run_files fs stdin outs files)) (fin (CksumModel.run_files fs stdin outs files)) /\
  outs ++ concat ws = out (CksumModel.run_files fs stdin outs files).
Proof.
  induction files as [|f r IH]; intros fs stdin outs; cbn [cksum_calls CksumModel.run_files].
  - exists []. split; [apply does_end|]. simpl. apply app_nil_r.
  - assert (D : forall m e, exists ws, does (cksum_die m e) ws (errout (CksumModel.die outs m e)) (fin (CksumModel.die outs m e)) /\
      outs ++ concat ws = out (CksumModel.die outs m e)).
    { intros m e. exists []. split; [apply does_say|]. simpl. apply app_nil_r. }
    destruct (beqb f (B "-")).
    + destruct stdin as [b [e|]]; [apply D|].
      destruct (IH fs ([], None) (outs ++ CksumModel.crc_line b f)) as (ws&H&E).
      exists (CksumModel.crc_line b f :: ws). split; [now apply does_put|]. rewrite <- E. cbn [concat]. now rewrite <- app_assoc.
    + destruct (fs f) as [e|b [e|]]; [apply D|apply D|].
      destruct (IH fs stdin (outs ++ CksumModel.crc_line b f)) as (ws&H&E).
      exists (CksumModel.crc_line b f :: ws). split; [now apply does_put|]. rewrite <- E. cbn [concat]. now rewrite <- app_assoc.
Qed.
Lemma cksum_main_deaf : forall fs stdin args, deaf (cksum_prog fs stdin args) (CksumModel.cksum_main fs stdin args).
Proof.
  intros fs stdin args. unfold deaf, cksum_prog, CksumModel.cksum_main.
  destruct (cksum_deaf (match args with [] => [B "-"] | _ => args end) fs stdin []) as (ws&H&E). exists ws. now split.
Qed.

Lemma cmp_deaf : forall b1 s b2 e1 e2 i l outs, exists ws,
  does (cmp_calls s b1 b2 e1 e2 i l) ws (errout (CmpModel.cmp_loop s b1 b2 e1 e2 i l outs)) (fin (CmpModel.cmp_loop s b1 b2 e1 e2 i l outs)) /\
  outs ++ concat ws = out (CmpModel.cmp_loop s b1 b2 e1 e2 i l outs).
Proof.
  induction b1 as [|c1 r1 IH]; intros s b2 e1 e2 i l outs.
  - cbn [cmp_calls CmpModel.cmp_loop].
    destruct e1 as [e|]; [|destruct b2; [destruct e2|]]; exists []; (split; [first [apply does_say|apply does_end]|simpl; apply app_nil_r]).
  - destruct b2 as [|c2 r2]; cbn [cmp_calls CmpModel.cmp_loop].
    + destruct e2; exists []; (split; [apply does_say|simpl; apply app_nil_r]).
    + destruct (Ascii.eqb c1 c2); [apply IH|].
      destruct (CmpModel.silent s); destruct (CmpModel.writeAll s).
      * apply IH.
      * exists []. split; [apply does_end|simpl; apply app_nil_r].
      * match goal with |- context [CmpModel.cmp_loop _ _ _ _ _ ?a ?b (outs ++ ?p)] =>
          destruct (IH s r2 e1 e2 a b (outs ++ p)) as (ws&H&E); exists (p :: ws) end.
        split; [now apply does_put|]. rewrite <- E. cbn [concat]. now rewrite <- !app_assoc.
      * match goal with |- context [outs ++ ?p] => lazymatch p with concat _ => fail | _ => exists [p] end end.
        split; [apply does_put, does_end|]. cbn [out concat]. now rewrite app_nil_r.
Qed.
Lemma cmp_main_deaf : forall w args, deaf (cmp_prog w args) (CmpModel.cmp_main w args).
Proof.
  intros w args. unfold deaf, cmp_prog, CmpModel.cmp_main.
  destruct (CmpModel.parse_settings args) as [s|m|]; [|exists []; split; [apply does_say|reflexivity]..].
  unfold CmpModel.cmp. destruct (CmpModel.open_both w s) as [[[b1 e1] [b2 e2]]|m|]; [|exists []; split; [apply does_say|reflexivity]..].
  exact (cmp_deaf b1 s b2 e1 e2 1 1 []).
Qed.

Lemma head_lines_does : forall segs rerr k after (r : bool -> run_result) o p,
  HeadModel.head_segs segs rerr k = (o, p) ->
  (forall q, q = p -> deaf (after q) (r q)) ->
  exists ws, does (head_lines segs rerr k after) ws (errout (r p)) (fin (r p)) /\ concat ws = o ++ out (r p).
Proof.
  induction segs as [|s segs IH]; intros rerr k after r o p H A.
  - cbn in H. injection H as <- <-. cbn [head_lines]. destruct (A rerr eq_refl) as (ws&D&E). exists ws. now split.
  - cbn [HeadModel.head_segs head_lines] in *. destruct segs as [|s' segs].
    + destruct (max_token <=? N.of_nat (List.length s))%N.
      * injection H as <- <-. destruct (A true eq_refl) as (ws&D&E). exists ws. now split.
      * destruct s as [|c s].
        -- injection H as <- <-. destruct (A rerr eq_refl) as (ws&D&E). exists ws. now split.
        -- injection H as <- <-. destruct (A rerr eq_refl) as (ws&D&E). destruct (0 <? k)%Z.
           ++ exists ((drop_cr (c :: s) ++ [nl]) :: ws). split; [now apply does_put|]. cbn [concat]. now rewrite E.
           ++ exists ws. now split.
    + destruct (max_token <=? N.of_nat (List.length s))%N.
      * injection H as <- <-. destruct (A true eq_refl) as (ws&D&E). exists ws. now split.
      * destruct (0 <? k)%Z.
        -- destruct (HeadModel.head_segs (s' :: segs) rerr (k - 1)) as [o' p'] eqn:F. injection H as <- <-.
           destruct (IH rerr (k - 1)%Z after r o' p' F A) as (ws&D&E).
           exists ((drop_cr s ++ [nl]) :: ws). split; [now apply does_put|]. cbn [concat]. rewrite E.
           now rewrite <- !app_assoc.
        -- injection H as <- <-. destruct (A false eq_refl) as (ws&D&E). exists ws. now split.
Qed.
Lemma head_title_does : forall many i f g ws er e, does g ws er e ->
  exists ws', does (head_title many i f g) ws' er e /\ concat ws' = HeadModel.header many i f ++ concat ws.
Proof.
  intros many i f g ws er e H. unfold head_title, HeadModel.header. destruct many; [|exists ws; now split].
  destruct (0 <? i).
  - exists ([nl] :: (B "==> " ++ f ++ B " <==" ++ [nl]) :: ws). split; [now apply does_put, does_put|].
    cbn [concat]. now rewrite <- !app_assoc.
  - exists ((B "==> " ++ f ++ B " <==" ++ [nl]) :: ws). split; [now apply does_put|].
    cbn [concat]. now rewrite <- !app_assoc.
Qed.
Lemma head_deaf : forall fs w many k i, deaf (head_calls w many k i fs) (HeadModel.process_from w many k i fs).
Proof.
  induction fs as [|f r IH]; intros w many k i; cbn [head_calls HeadModel.process_from].
  - exists []. split; [apply does_end|reflexivity].
  - destruct (HeadModel.open w i f) as [c|].
    + unfold HeadModel.head_file.
      destruct (HeadModel.head_segs (split_on nl (fst c)) (match snd c with Some _ => true | None => false end) k) as [o p] eqn:F.
      destruct (head_lines_does _ _ _ (fun p => if p then End Panicked else head_calls w many k (S i) r)
        (fun p => if p then {| out := []; errout := []; fin := Panicked |} else HeadModel.process_from w many k (S i) r) o p F) as (ws&D&E).
      { intros q ->. destruct p; [exists []; split; [apply does_end|reflexivity]|apply IH]. }
      destruct (head_title_does many i f _ _ _ _ D) as (ws'&D'&E'). exists ws'. rewrite E in E'.
      destruct p; (split; [exact D'|]); rewrite E'; cbn [out]; [now rewrite app_nil_r|reflexivity].
    + destruct (head_title_does many i f _ _ _ _ (does_end Panicked)) as (ws'&D'&E'). exists ws'. split; [exact D'|].
      rewrite E'. cbn. apply app_nil_r.
Qed.
Lemma head_main_deaf : forall w args, deaf (head_prog w args) (HeadModel.head_main w args).
Proof.
  intros w args. unfold head_prog, HeadModel.head_main.
  destruct (HeadModel.parse_settings args); [apply head_deaf|exists []; split; [apply does_end|reflexivity]..].
Qed.

Lemma tsort_main_deaf : forall perm fs stdin args r, TsortModel.tsort_main perm fs stdin args = Some r ->
  exists g, tsort_prog perm fs stdin args = Some g /\ deaf g r.
Proof.
  intros perm fs stdin args r.
  assert (D : forall m e, deaf (tsort_die m e) (TsortModel.die m e)) by (intros m e; exists []; split; [apply does_say|reflexivity]).
  assert (T : forall ws se r, TsortModel.tsort_run perm ws se = Some r -> exists g, tsort_calls perm ws se = Some g /\ deaf g r).
  { intros ws se r0. unfold TsortModel.tsort_run, tsort_calls.
    destruct (TsortModel.read_pairs TsortModel.new_sorter ws) as [s|w1]; [|intros [= <-]; eexists; split; [reflexivity|apply D]].
    destruct se as [e|]; [intros [= <-]; eexists; split; [reflexivity|apply D]|].
    destruct (TsortModel.order perm s) as [[u [l|e|]]|]; [| |discriminate..].
    - intros [= <-]. eexists; split; [reflexivity|]. exists (map (fun x => x ++ [nl]) l ++ []). split; [apply put_lines_does, does_end|].
      cbn [out]. now rewrite app_nil_r, flat_map_concat_map.
    - intros [= <-]. eexists; split; [reflexivity|apply D]. }
  unfold TsortModel.tsort_main, tsort_prog.
  destruct args as [|a args]; [|destruct (beqb a (B "-")); [|destruct (fs a) as [c|]]];
    try (match goal with |- context [TsortModel.scan_words ?x] => destruct (TsortModel.scan_words x) as [ws tl] end; apply T).
  intros [= <-]. eexists; split; [reflexivity|apply D].
Qed.

Lemma diff_main_deaf : forall ae fs args r, DiffModel.diff_main ae fs args = Some r ->
  exists g, diff_prog ae fs args = Some g /\ deaf g r.
Proof.
  intros ae fs args r. unfold DiffModel.diff_main, diff_prog.
  destruct (DiffModel.parse_settings ae args) as [s|m|].
  - match goal with |- context [DiffModel.diff ?a ?b] => destruct (DiffModel.diff a b) as [[c|m|]|] end; [| | |discriminate];
      intros [= <-]; eexists; (split; [reflexivity|]).
    + exists [DiffModel.format c ++ [nl]]. split; [apply does_put, does_end|]. cbn [concat out]. apply app_nil_r.
    + exists []. split; [apply does_end|reflexivity].
    + exists []. split; [apply does_end|reflexivity].
  - intros [= <-]. eexists. split; [reflexivity|]. exists [B "Oh heck an error: " ++ m ++ [nl]]. split; [apply does_put, does_end|].
    cbn [concat out]. apply app_nil_r.
  - intros [= <-]. eexists. split; [reflexivity|]. exists []. split; [apply does_end|reflexivity].
Qed.

(* ---- outputs ---- *)
Lemma taken_full : forall ws i, taken full_disk i ws = [].
Proof. induction ws as [|p ws IH]; intros i; [reflexivity|]. cbn. apply IH. Qed.
Lemma taken_misses : forall x e b i a k, k + List.length a = i -> taken (misses i e) k (a ++ x :: b) = concat a ++ concat b.
Proof.
  assert (T : forall e b i k, i < k -> taken (misses i e) k b = concat b).
  { induction b as [|p b IH]; intros i k H; [reflexivity|]. cbn [taken concat]. unfold misses at 1.
    replace (k =? i) with false by (symmetry; apply Nat.eqb_neq; lia). cbn [fst]. rewrite firstn_all, IH by lia. reflexivity. }
  intros x e b i. induction a as [|p a IH]; intros k H; cbn [app taken concat List.length] in *.
  - unfold misses at 1. replace (k =? i) with true by (symmetry; apply Nat.eqb_eq; lia). cbn [fst firstn app]. apply T. lia.
  - unfold misses at 1. replace (k =? i) with false by (symmetry; apply Nat.eqb_neq; lia). cbn [fst]. rewrite firstn_all, IH by lia.
    now rewrite <- app_assoc.
Qed.
Lemma taken_nothing : forall s ws i, (forall j q, i <= j -> fst (s j q) = 0) -> taken s i ws = [].
Proof.
  induction ws as [|p ws IH]; intros i H; [reflexivity|]. cbn [taken]. rewrite (H i p) by lia. cbn. apply IH. intros j q L. apply H. lia.
Qed.
Lemma taken_prefix : forall s, honest s -> broken_for_good s -> forall ws i, is_prefix (taken s i ws) (concat ws).
Proof.
  intros s Ho Br. induction ws as [|p ws IH]; intros i; [now exists []|]. cbn [taken concat].
  destruct (s i p) as [n [e|]] eqn:E; cbn [fst].
  - rewrite (taken_nothing s ws (S i)) by (intros j q L; apply (Br _ _ _ _ E); lia). rewrite app_nil_r.
    exists (skipn n p ++ concat ws). rewrite app_assoc, firstn_skipn. reflexivity.
  - rewrite firstn_all2 by (eapply Ho; eassumption). destruct (IH (S i)) as (c&->). exists c. now rewrite app_assoc.
Qed.
Lemma taken_all : forall s, (forall i p, s i p = (List.length p, None)) -> forall ws i, taken s i ws = concat ws.
Proof. intros s H. induction ws as [|p ws IH]; intros i; [reflexivity|]. cbn. rewrite H. cbn. now rewrite firstn_all, IH. Qed.

(* ---- cat ---- *)
Definition fails_at (s : sink) (i : nat) (e : bytes) : Prop := exists j p n, i <= j /\ s j p = (n, Some e).

Lemma copy_runs : forall s, honest s -> forall ps e i k,
  (exists j, exec s i (copy ps e k) = {| out := concat ps ++ out (exec s j (k e)); errout := errout (exec s j (k e)); fin := fin (exec s j (k e)) |} /\ i <= j) \/
  (exists x o j, fails_at s i x /\ is_prefix o (concat ps) /\
     exec s i (copy ps e k) = {| out := o ++ out (exec s j (k (Some x))); errout := errout (exec s j (k (Some x))); fin := fin (exec s j (k (Some x))) |}).
Proof.
  intros s Ho. induction ps as [|p ps IH]; intros e i k.
  - left. exists i. split; [|lia]. cbn. now destruct (exec s i (k e)).
  - cbn [copy exec concat]. destruct (s i p) as [n [x|]] eqn:E.
    + right. exists x, (firstn n p), (S i). split; [exists i, p, n; split; [lia|exact E]|]. split; [|reflexivity].
      exists (skipn n p ++ concat ps). now rewrite app_assoc, firstn_skipn.
    + rewrite firstn_all2 by (eapply Ho; eassumption). destruct (IH e (S i) k) as [(j&X&L)|(x&o&j&F&P&X)].
      * left. exists j. rewrite X. cbn. split; [now rewrite <- app_assoc|lia].
      * right. exists x, (p ++ o), j. split; [|split].
        -- destruct F as (j'&q&m&L&F). exists j', q, m. split; [lia|exact F].
        -- destruct P as (c&->). exists c. now rewrite app_assoc.
        -- rewrite X. cbn. now rewrite <- app_assoc.
Qed.

Lemma cat_runs : forall s w pieces, honest s -> (forall b, concat (pieces b) = b) -> forall fs i n,
  let r := exec s n (cat_calls w pieces i fs) in
  let full := CatModel.cat_loop w i fs in
  fin r = Exit 0 /\
  ((out r = fst full /\ errout r = snd full) \/
   (exists f e, In f fs /\ fails_at s n e /\ errout r = cat_message f e /\ is_prefix (out r) (fst full))).
Proof.
  intros s w pieces Ho Pc. induction fs as [|f fs IH]; intros i n; cbn zeta.
  - cbn. split; [reflexivity|]. left. now split.
  - cbn [cat_calls CatModel.cat_loop]. unfold CatModel.write_file.
    set (after := fun e => match e with Some e => Say (cat_message f e) (End (Exit 0)) | None => cat_calls w pieces (S i) fs end).
    assert (C : forall st : CatModel.stream,
      let r := exec s n (copy (pieces (fst st)) (snd st) after) in
      let full := match st with (o, Some e) => (o, cat_message f e) | (o, None) => let '(o', e') := CatModel.cat_loop w (S i) fs in (o ++ o', e') end in
      fin r = Exit 0 /\ ((out r = fst full /\ errout r = snd full) \/
        (exists g e, In g (f :: fs) /\ fails_at s n e /\ errout r = cat_message g e /\ is_prefix (out r) (fst full)))).
    { intros [b e]. cbn [fst snd]. cbn zeta. destruct (copy_runs s Ho (pieces b) e n after) as [(j&X&L)|(x&o&j&F&P&X)]; rewrite X; clear X; cbn [out errout fin].
      - rewrite Pc. destruct e as [e|]; cbn [after].
        + cbn. split; [reflexivity|]. left. rewrite !app_nil_r. now split.
        + destruct (IH (S i) j) as (Fi&D). destruct (CatModel.cat_loop w (S i) fs) as [o' e'] eqn:Q. cbn [fst snd] in *.
          split; [exact Fi|]. destruct D as [[O E]|(g&x&I&Fl&E&(c&O))].
          * left. rewrite O. now split.
          * right. exists g, x. split; [now right|]. split; [destruct Fl as (j'&q&m&L'&Fl); exists j', q, m; split; [lia|exact Fl]|].
            split; [exact E|]. exists c. rewrite O. now rewrite app_assoc.
      - rewrite Pc in P. cbn. split; [reflexivity|]. right. exists f, x. split; [now left|]. split; [exact F|]. rewrite !app_nil_r. split; [reflexivity|].
        destruct P as (c&P). destruct e as [e|]; cbn [fst].
        + now exists c.
        + destruct (CatModel.cat_loop w (S i) fs) as [o' e']. cbn [fst]. exists (c ++ o'). rewrite P. now rewrite app_assoc. }
    destruct (beqb f (B "-")); [apply C|]. destruct (CatModel.opens w f) as [st|e]; [apply C|].
    cbn. split; [reflexivity|]. left. rewrite app_nil_r. now split.
Qed.

Lemma deaf_runs : forall g r, deaf g r -> exists ws, concat ws = out r /\
  forall s, exec s 0 g = {| out := taken s 0 ws; errout := errout r; fin := fin r |}.
Proof. intros g r (ws&D&E). exists ws. split; [exact E|]. intros s. apply D. Qed.
Lemma deaf_lost : forall g r, deaf g r -> forall s,
  fin (exec s 0 g) = fin r /\ errout (exec s 0 g) = errout r /\ exec full_disk 0 g = {| out := []; errout := errout r; fin := fin r |}.
Proof.
  intros g r D s. destruct (deaf_runs g r D) as (ws&_&X). rewrite !X. cbn. rewrite taken_full. repeat split.
Qed.
Lemma deaf_prefix : forall g r, deaf g r -> forall s, honest s -> broken_for_good s -> is_prefix (out (exec s 0 g)) (out r).
Proof. intros g r D s H K. destruct (deaf_runs g r D) as (ws&E&X). rewrite X, <- E. cbn. now apply taken_prefix. Qed.

(* cksum on files that can be read *)
Lemma cksum_all : forall files fs stdin content, (forall f, In f files -> beqb f (B "-") = false /\ fs f = CksumModel.Reads (content f) None) ->
  does (cksum_calls fs stdin files) (map (fun f => CksumModel.crc_line (content f) f) files) [] (Exit 0).
Proof.
  induction files as [|f r IH]; intros fs stdin content H; [apply does_end|]. cbn [cksum_calls map].
  destruct (H f (or_introl eq_refl)) as (-> & ->). apply does_put, IH. intros g I. apply H. now right.
Qed.
