(* Theorems for C55 (the values of hdx's properties, and stylesheets with them, are written with the tokens they were read from). The
   vocabulary is in SpecWritten.v and SpecValues.v. *)
From Coq Require Import String.
From Coq Require Import List Permutation.
From Verif Require Import LexTrace AstSheet Values SpecSheet SpecLex SpecTrace SpecParser SpecSyntax SpecTraits SpecRules KindProofs LexTrace CursorProofs LexBase LexFacts ParserProofs ParserProofs3 FaithProofs FaithTraits FaithRules SheetTotal Tells Tells4 ValuesTotal ValuesTold PropWritten PropValues SpecWritten SpecValues.
Open Scope N_scope.
Open Scope list_scope.

Lemma table_marks : forallb (fun r => match property_name (chars (fst r)) with Some n => Bool.eqb (reordered n) (mixed_at 5 (chars (fst r))) && Bool.eqb (negb (incomplete n)) (kept_at 5 (chars (fst r))) | None => true end) VALUE_TABLE = true.
Proof. vm_compute. reflexivity. Qed.
Lemma values_told : forall src f, told_values src f reordered incomplete VALUES.
Proof.
  intros src f w m I. unfold VALUES in I. apply in_flat_map in I. destruct I as (r & Ir & I). pose proof table_marks as M. rewrite forallb_forall in M. specialize (M r Ir). destruct (property_name (chars (fst r))) as [n |] eqn:Ew; [| destruct I].
  destruct (value_ty 5 (chars (fst r))) as [t |] eqn:Et; [| destruct I]. destruct I as [E | []]. injection E as -> <-. apply andb_prop in M. destruct M as (M1 & M2). apply Bool.eqb_prop in M1, M2. rewrite M1, M2. exact (value_told src f 5 _ t Et).
Qed.
Lemma values_written : SpecWritten.values_faithful reordered incomplete VALUES.
Proof. apply told_faithful. exact values_told. Qed.

(* ---- C55 ---- *)
(* the parser of each property, wherever it is run, reads forwards; what it returns are the tokens it read but for whitespace and
   comments (emits), in the order read unless the property is one of REORDERED, and all of them unless it is one of INCOMPLETE *)
Theorem C55_value_written_partial : forall name value_p, In (name, value_p) VALUES -> forall p cs r q, ahead (plex p) cs -> skips_trivia p -> value_p p = Some (r, q) ->
  exists used rest, cs = used ++ rest /\ ahead (plex q) rest /\ lsrc (plex q) = lsrc (plex p) /\ lfeat (plex q) = lfeat (plex p) /\ skips_trivia q /\
    forall l, r = Ok l -> In name INCOMPLETE \/ emits true used l /\ (In name REORDERED \/ emits false used l).
Proof.
  intros name value_p I p cs r q A T E. destruct (values_written name value_p I p cs r q A T E) as (u & rest & E1 & A1 & S1 & S2 & T1 & X). exists u, rest. repeat (split; [assumption |]). intros l El.
  assert (L : forall w l, listed l w = true -> In w l) by (intros w l' B; apply existsb_exists in B; destruct B as (x & Ix & Ex); apply text_eqb_spec in Ex; subst x; exact Ix).
  destruct (incomplete name) eqn:Ei; [left; apply L; exact Ei |]. right. specialize (X l El eq_refl). destruct (reordered name) eqn:Er; [split; [exact X | left; apply L; exact Er] |].
  split; [| right; exact X]. exact (emits_weak true u l X).
Qed.
Print Assumptions C55_value_written_partial.
(* so a stylesheet with hdx's own properties is written with its tokens: the parameter of C53 is met *)
Theorem C55_stylesheet_written_partial : forall src f cs l q, well_behaved (single_line_comments f) src -> lex src f = Some cs ->
  parse_sheet VALUES (parser_new src f) = Some (Ok l, q) -> forallb (whole incomplete) l = true -> emits (existsb (mixed reordered) l) cs (sheet_cursors l).
Proof. intros src f cs l q. exact (C53_stylesheet_written_partial reordered incomplete VALUES src f cs l q values_written). Qed.
Print Assumptions C55_stylesheet_written_partial.
Theorem C55_no_token_lost_partial : forall src f cs l q, well_behaved (single_line_comments f) src -> lex src f = Some cs ->
  parse_sheet VALUES (parser_new src f) = Some (Ok l, q) -> forallb (whole incomplete) l = true ->
  Permutation (filter is_lasting (map ctok (sheet_cursors l))) (filter is_lasting (map ctok cs)) /\
  (existsb (mixed reordered) l = false -> filter is_lasting (map ctok (sheet_cursors l)) = filter is_lasting (map ctok cs)).
Proof. intros src f cs l q. exact (C53_no_token_lost_partial reordered incomplete VALUES src f cs l q values_written). Qed.
Print Assumptions C55_no_token_lost_partial.
(* the exceptions are real: the parts of a value are written in the order of its definition ... *)
Theorem C55_order_refuted : written (chars "a{columns:2 auto;border-top:red solid}") VALUES = map (fun s => Some (chars s)) ["a"; "{"; "columns"; ":"; "auto"; "2"; ";"; "border-top"; ":"; "solid"; "red"; "}"]%string.
Proof. vm_compute. reflexivity. Qed.
Print Assumptions C55_order_refuted.
(* ... and a zero before a length is lost in a radial gradient *)
Theorem C55_gradient_refuted : written (chars "a{list-style-image:radial-gradient(0 2px,red,blue)}") VALUES =
  map (fun s => Some (chars s)) ["a"; "{"; "list-style-image"; ":"; "radial-gradient("; "2px"; ","; "red"; ","; "blue"; ")"; "}"]%string.
Proof. vm_compute. reflexivity. Qed.
Print Assumptions C55_gradient_refuted.
Definition case_values : text := chars "@supports (width: fit-content(2px)) { a { width: fit-content(2px); color: rgb(1 2 3 / 4%); float: snap-block(2px, near) !important } } @font-face { gap: 1px 2px } @keyframes k { from { border-top-color: RED } } @page { @top-left { margin-top: 2px } } b { flex-flow: row wrap }".
Definition sheet_of (src : text) : list css_rule := match parse_sheet VALUES (parser_new src no_features) with Some (Ok l, _) => l | _ => [] end.
Example C55_case : well_behaved false case_values /\ (exists cs q, lex case_values no_features = Some cs /\ parse_sheet VALUES (parser_new case_values no_features) = Some (Ok (sheet_of case_values), q)) /\ List.length (sheet_of case_values) = 5%nat /\ forallb (whole incomplete) (sheet_of case_values) = true /\ map (mixed reordered) (sheet_of case_values) = [false; false; false; false; true].
Proof.
  split; [apply ordinary_spec; vm_compute; reflexivity |]. split; [eexists _, _; split; vm_compute; reflexivity |]. split; [vm_compute; reflexivity |]. split; vm_compute; reflexivity.
Qed.
