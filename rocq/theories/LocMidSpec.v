(* The first lines of a locale definition. *)
From Verif Require Import GoBase LocDocSpec.

(* some whole categories, the header of one more and some of its entries, with empty lines between *)
Definition no_comments (file : list bytes) : Prop := Forall (fun l => hd_error l <> Some "#"%char) file.
Definition begun (esc : N) (doc : list part) (c : lc) (es : list entry) (text : bytes) : Prop :=
  Forall (part_ok esc) doc /\ Forall (entry_ok esc c) es /\
  exists file, laid_out (flat_map part_lines doc ++ lc_name c :: map write_entry es) file /\ no_comments file /\ text = file_text file.

(* some whole categories and the header of LC_COLLATE *)
Definition begun_collation (esc : N) (doc : list part) (text : bytes) : Prop :=
  Forall (part_ok esc) doc /\
  exists file, laid_out (flat_map part_lines doc ++ [B "LC_COLLATE"]) file /\ no_comments file /\ text = file_text file.

(* the keywords with texts in quotes *)
Definition text_keyword (c : lc) (k : bytes) : Prop :=
  exists sh ks, In (c, sh, ks) keywords /\ In k ks /\ In sh [a_text; a_full_text; full_texts].
