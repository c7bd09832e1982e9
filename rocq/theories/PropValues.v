(* Theorems for C54 (the values of hdx's properties are parsed or refused). VALUES (Values.v) is the table of hdx's properties; its
   parsers are those that the #[value] macro generates (Def.v) from the definitions in the source. *)
From Coq Require Import String.
From Coq Require Import List Lia.
From Verif Require Import AstSheet Values SpecSheet SpecLex SpecTrace SpecParser SpecSyntax SpecTraits KindProofs LexTrace ParserProofs ParserProofs3 SheetReadable SheetTotal ValuesTotal.
Open Scope N_scope.
Open Scope list_scope.

(* ---- C54 ---- *)
(* the table: each definition is one that the macro accepts, each gives a property, and no property has two *)
Fixpoint distinct (l : list text) : bool := match l with [] => true | w :: r => negb (existsb (text_eqb w) r) && distinct r end.
Lemma distinct_spec : forall l, distinct l = true -> NoDup l.
Proof.
  intro l. induction l as [| w l IH]; intro E; [apply NoDup_nil |]. cbn [distinct] in E. apply andb_prop in E. destruct E as (E1 & E2). apply NoDup_cons; [| exact (IH E2)].
  intro I. assert (X : existsb (text_eqb w) l = true) by (apply existsb_exists; exists w; split; [exact I | apply CursorProofs.text_eqb_spec; reflexivity]). rewrite X in E1. discriminate.
Qed.
Theorem C54_every_definition_compiles :
  Forall (fun r => parse_def (chars (snd r)) <> None /\ value_ty 3 (chars (fst r)) <> None /\ property_name (chars (fst r)) <> None) VALUE_TABLE /\
  List.length VALUE_TABLE = 341%nat /\ List.length VALUES = 341%nat /\ NoDup (map fst VALUES).
Proof.
  split; [| split; [vm_compute; reflexivity |]; split; [vm_compute; reflexivity | apply distinct_spec; vm_compute; reflexivity]].
  assert (X : forallb (fun r => match parse_def (chars (snd r)), value_ty 3 (chars (fst r)), property_name (chars (fst r)) with Some _, Some _, Some _ => true | _, _, _ => false end) VALUE_TABLE = true) by (vm_compute; reflexivity).
  rewrite forallb_forall in X. apply Forall_forall. intros r I. specialize (X r I). destruct (parse_def _), (value_ty _ _), (property_name _); try discriminate. split; [discriminate |]. split; discriminate.
Qed.
Print Assumptions C54_every_definition_compiles.
(* wherever a value may stand, the parser of each property comes back, with an answer or an error, at the same token or a later *)
Theorem C54_values_return : forall name value_p, In (name, value_p) VALUES -> forall (M : mode) src f p cs, stands src f p cs ->
  exists r q used rest, value_p p = Some (r, q) /\ cs = used ++ rest /\ stands src f q rest.
Proof. intros name value_p I. pose proof values_sensible as X. rewrite Forall_forall in X. exact (X _ I). Qed.
Print Assumptions C54_values_return.
(* so a stylesheet is parsed or refused with hdx's own properties *)
Theorem C54_stylesheets_return_partial : forall src f cs, acceptable src f cs ->
  exists r q used rest, parse_sheet VALUES (parser_new src f) = Some (r, q) /\ cs = used ++ rest /\ ahead (plex q) rest.
Proof.
  intros src f cs A. destruct (sheet_returns VALUES values_sensible src f _ cs (acceptable_stands src f cs A)) as (r & q & u & rest & E & Ec & S). exists r, q, u, rest. split; [exact E |]. split; [exact Ec | apply S].
Qed.
Print Assumptions C54_stylesheets_return_partial.
Definition case_sheet : text := chars "a { width: fit-content(2px); color: rgb(1 2 3 / 4%); float: snap-block(2px, near); list-style-image: linear-gradient(to left, red, blue 2px) !important; position-area: top left; gap: 1px 2px; flex-flow: row wrap; border-top-color: RED; }".
(* what the declarations of a sheet of style rules became: the property, when the value was one of its own *)
Definition known_of (v : style_value) : option text := match v with SvKnown w _ => Some w | _ => None end.
Definition known (props : properties) (src : text) : list (option text) :=
  match parse_sheet props (parser_new src no_features) with
  | Some (Ok l, _) => flat_map (fun r => match r with RStyle _ _ decls _ _ => map (fun d => known_of (pr_value (fst d))) decls | _ => [] end) l
  | _ => []
  end.
Example C54_case : acceptable case_sheet no_features (match lex case_sheet no_features with Some cs => cs | None => [] end) /\
  known VALUES case_sheet = map (fun s => Some (chars s)) ["width"; "color"; "float"; "list-style-image"; "position-area"; "gap"; "flex-flow"; "border-top-color"]%string.
Proof.
  split; [destruct (text_ok_spec case_sheet no_features) as (cs & A); [vm_compute; reflexivity | destruct A as (A1 & A2 & A3 & A4 & A5 & E & A6); rewrite E; unfold acceptable; auto 10] |]. vm_compute. reflexivity.
Qed.
