(* The piece that is quoted in a report is what the named rule matches there. *)
From Verif Require Import GoBase GoFacts NumFacts Utf8Facts EdModel EdPegModel EdPegSpec EdPegProofs EdErrModel EdErrSpec EdErrProofs.
Local Open Scope nat_scope.

(* the named parts of an expression *)
Fixpoint parts (e : nexp) : list (bytes * pexp) :=
  match e with
  | NChr _ | NRange _ _ | NDot | NAct _ => []
  | NSeq a b | NAlt a b => parts a ++ parts b
  | NStar a | NOpt a | NNot a => parts a
  | NText a => (B "PegText", bare a) :: parts a
  | NRule name a => (name, bare a) :: parts a
  end.
Lemma skipn_next : forall {A} (l : list A) n x t, skipn n l = x :: t -> skipn (S n) l = t.
Proof.
  intros A. induction l as [|a l IH]; intros [|n] x t H; cbn in H; try discriminate.
  - now injection H as <- <-.
  - exact (IH n x t H).
Qed.
Section Named.
Variable rs : list N.
Variable table : list (bytes * pexp).
Definition told (m : named) : Prop :=
  m = no_token \/ exists a, In (t_rule m, a) table /\ matches a rs (t_begin m) (t_end m).
Definition tells (f : named -> nat -> list N -> nres * named) : Prop :=
  forall m pos, told m -> told (snd (f m pos (skipn pos rs))) /\
    forall p r, fst (f m pos (skipn pos rs)) = NOk p r -> r = skipn p rs.
Lemma nstar_tells : forall f, tells f -> forall k, tells (nstar_loop f k).
Proof.
  intros f H. induction k as [|k IH]; intros m pos M; cbn [nstar_loop]; [split; [exact M|discriminate]|].
  destruct (H m pos M) as [H1 H2]. destruct (f m pos (skipn pos rs)) as [x m1]. cbn [fst snd] in H1, H2. destruct x as [p r| |].
  - rewrite (H2 p r eq_refl). destruct (p =? pos); [split; [exact H1|discriminate]|]. now apply IH.
  - split; [exact H1|]. now intros p r [= <- <-].
  - split; [exact H1|discriminate].
Qed.
Lemma add_told : forall name a e pos p r m, bare e = a -> In (name, a) table -> told m -> same (NOk p r) (pmatch a pos (skipn pos rs)) ->
  told (add name pos p m).
Proof.
  intros name a e pos p r m E I M S0. unfold add. destruct (_ && _)%bool; [|exact M]. right. exists a. split; [exact I|].
  cbn [t_begin t_end]. unfold matches. destruct (pmatch a pos (skipn pos rs)) as [p' r' t| |]; cbn [same] in S0; try discriminate.
  injection S0 as <- <-. eauto.
Qed.
Lemma nmatch_tells : forall e, incl (parts e) table -> tells (nmatch e).
Proof.
  induction e; intros I m pos M; cbn [nmatch fst snd].
  - split; [exact M|]. destruct (skipn pos rs) as [|x rest] eqn:Q; [discriminate|]. destruct (N.eqb x c); [|discriminate].
    intros p r [= <- <-]. symmetry. now apply skipn_next in Q.
  - split; [exact M|]. destruct (skipn pos rs) as [|x rest] eqn:Q; [discriminate|]. destruct (_ && _)%bool; [|discriminate].
    intros p r [= <- <-]. symmetry. now apply skipn_next in Q.
  - split; [exact M|]. destruct (skipn pos rs) as [|x rest] eqn:Q; [discriminate|]. intros p r [= <- <-]. symmetry. now apply skipn_next in Q.
  - apply incl_app_inv in I as [I1 I2]. destruct (IHe1 I1 m pos M) as [H1 H2]. destruct (nmatch e1 m pos (skipn pos rs)) as [x m1].
    cbn [fst snd] in H1, H2. destruct x as [p r| |]; [|split; [exact H1|discriminate]..].
    rewrite (H2 _ _ eq_refl). now apply IHe2.
  - apply incl_app_inv in I as [I1 I2]. destruct (IHe1 I1 m pos M) as [H1 H2]. destruct (nmatch e1 m pos (skipn pos rs)) as [x m1].
    cbn [fst snd] in H1, H2. destruct x as [p r| |]; [split; [exact H1|exact H2]| |split; [exact H1|discriminate]]. now apply IHe2.
  - apply nstar_tells; [now apply IHe|exact M].
  - destruct (IHe I m pos M) as [H1 H2]. destruct (nmatch e m pos (skipn pos rs)) as [x m1]. cbn [fst snd] in H1, H2.
    destruct x as [p r| |]; cbn [fst snd]; (split; [exact H1|]); [exact H2| |discriminate]. now intros p r [= <- <-].
  - destruct (IHe I m pos M) as [H1 H2]. destruct (nmatch e m pos (skipn pos rs)) as [x m1]. cbn [fst snd] in H1, H2.
    destruct x as [p r| |]; cbn [fst snd]; (split; [exact H1|]); [discriminate| |discriminate]. now intros p r [= <- <-].
  - cbn [parts] in I. apply incl_cons_inv in I as [I1 I2].
    destruct (IHe I2 m pos M) as [H1 H2]. pose proof (nmatch_same e m pos (skipn pos rs)) as S0.
    destruct (nmatch e m pos (skipn pos rs)) as [x m1]. cbn [fst snd] in H1, H2, S0.
    destruct x as [p r| |]; cbn [fst snd]; [|split; [exact H1|discriminate]..].
    split; [eapply add_told; eauto|exact H2].
  - unfold add. rewrite Nat.eqb_refl. split; [exact M|]. now intros p r [= <- <-].
  - cbn [parts] in I. apply incl_cons_inv in I as [I1 I2].
    destruct (IHe I2 m pos M) as [H1 H2]. pose proof (nmatch_same e m pos (skipn pos rs)) as S0.
    destruct (nmatch e m pos (skipn pos rs)) as [x m1]. cbn [fst snd] in H1, H2, S0.
    destruct x as [p r| |]; cbn [fst snd]; [|split; [exact H1|discriminate]..].
    split; [eapply add_told; eauto|exact H2].
Qed.
End Named.
(* equal expressions *)
Fixpoint pexp_eqb (a b : pexp) : bool :=
  match a, b with
  | PChr c, PChr d => N.eqb c d
  | PRange x y, PRange u v => (N.eqb x u && N.eqb y v)%bool
  | PDot, PDot => true
  | PSeq x y, PSeq u v | PAlt x y, PAlt u v => (pexp_eqb x u && pexp_eqb y v)%bool
  | PStar x, PStar u | POpt x, POpt u | PNot x, PNot u | PText x, PText u => pexp_eqb x u
  | PAct n, PAct k => n =? k
  | _, _ => false
  end.
Lemma pexp_eqb_ok : forall a b, pexp_eqb a b = true -> a = b.
Proof.
  induction a; intros [] H; cbn in H; try discriminate; try (f_equal; auto; fail).
  - apply N.eqb_eq in H. now subst.
  - apply andb_true_iff in H as [H1 H2]. apply N.eqb_eq in H1, H2. now subst.
  - apply andb_true_iff in H as [H1 H2]. f_equal; auto.
  - apply andb_true_iff in H as [H1 H2]. f_equal; auto.
  - apply Nat.eqb_eq in H. now subst.
Qed.
Definition in_table (table : list (bytes * pexp)) (x : bytes * pexp) : bool :=
  existsb (fun y => (beqb (fst x) (fst y) && pexp_eqb (snd x) (snd y))%bool) table.
Lemma in_table_ok : forall table x, in_table table x = true -> In x table.
Proof.
  intros table [n a] H. apply existsb_exists in H as ([k b]&I&H). apply andb_true_iff in H as [H1 H2]. cbn [fst snd] in *.
  apply beqb_eq in H1. apply pexp_eqb_ok in H2. now subst.
Qed.
Lemma all_named : incl (parts n_first) rule_names.
Proof.
  assert (H : forallb (in_table rule_names) (parts n_first) = true) by (vm_compute; reflexivity).
  intros x I. apply in_table_ok. rewrite forallb_forall in H. now apply H.
Qed.
Lemma parse_told : forall buf m, parse_token buf = Val (Some m) -> told (runes_of buf) rule_names m.
Proof.
  intros buf m H. destruct (nmatch_tells (runes_of buf) rule_names n_first all_named no_token 0 (or_introl eq_refl)) as [K _].
  unfold parse_token in H. cbn [skipn] in K. destruct (nmatch n_first no_token 0 (runes_of buf)) as [x m1]. cbn [snd] in K.
  destruct x; try discriminate. now injection H as <-.
Qed.
