(* Values without functions that are values of a definition are accepted: several tokens. *)
From Coq Require Import ZifyBool ZifyNat ZifyN Permutation.
From Coq Require Import String.
From Coq Require Import List.
From Verif Require DimProofs.
From Verif Require Import AstSheet Values SpecSheet SpecLex SpecTrace SpecParser SpecSyntax SpecTraits SpecRules SpecFeatures SpecCursor SpecToken LexBase TokenProofs KindProofs LexFacts LexTrace CursorProofs CursorLex CursorFacts
  ParserProofs ParserProofs2 ParserProofs3 ParserProofs4 CompareProofs SyntaxProofs SyntaxTotal TraitsTotal RulesTotal FeatureProofs FaithProofs FaithTraits FaithRules Goes Goes2 Goes3 SheetTotal ValuesTotal Tells ValuesTold SpecSelectors SpecSelectorText SelectorProofs3 SelectorProofs9 SelectorGoes SpecConforms SpecAccepts ValuesConform ValuesConform2 ValuesConform3 ValuesTaken ValuesTaken2 ValuesTaken3 ValuesTaken4 ValuesTaken5.
Open Scope N_scope.
Open Scope list_scope.
Notation length := List.length.


(* tokens, each with the whitespace and comments before it *)
Definition laid (gs : list (list cursor * cursor)) : list cursor := flat_map (fun x => fst x ++ [snd x]) gs.
Definition clear_of (sg : text -> bool) (d : def) : bool :=
  match d with
  | DComb l s => match s with SOrdered => match l with [DType a; DOptional (DType b)] => sg_type sg a && sg_type sg b | _ => false end | _ => sg_def sg d end
  | DMult (DType t) (MuRange (RgRange a b)) => sg_type sg t && (1 <=? a) && (a <=? b)
  | DMult (DType t) (MuRange (RgFixed a)) => sg_type sg t && (1 <=? a)
  | DMult (DType t) (MuComma RgNone) => sg_type sg t
  | _ => sg_def sg d
  end.

Section Several.
Variable src : text.
Context {mod_ : mode}.
Variable f : feature.
Notation stands := (stands src f).
Notation seen := (seen src).
Notation whole := (whole src f).
Notation conforms := (conforms src true).
Notation here := (here src f).
Notation hits := (hits src f).
Notation quiet := (quiet src f).
Notation eats := (eats src f).
Notation plainly := (plainly src).
Notation single := (single src f).
Notation fonly := (fonly src).
Notation tok := (tok src).

Definition fine (x : list cursor * cursor) : Prop := gap (fst x) /\ lasts (snd x) /\ plainly (snd x).
Definition toks (gs : list (list cursor * cursor)) : list cursor := map snd gs.
Definition takes (gs : list (list cursor * cursor)) (m : P (list cursor)) : Prop := forall p rest, here p (laid gs ++ rest) -> ended rest -> exists l q, m p = Some (Ok l, q) /\ here q rest.
Definition taking (d : def) (m : P (list cursor)) : Prop := forall gs, Forall fine gs -> conforms d (toks gs) -> free (toks gs) -> takes gs m.

Lemma ended_peek : forall k p rest, quiet k -> here p rest -> ended rest -> peek k p = Some false.
Proof.
  intros k p rest Q (S & K) (g & r & -> & G & E). pose proof S as (S1 & S2 & A & (Sf & Sc) & T). assert (F : Forall (in_kinds (pskip p)) g) by (rewrite K; apply gap_trivia; exact G). unfold peek. destruct r as [| c r].
  - rewrite (peek_next_spec p g [] A F Logic.I). cbn [hd_or_eof]. apply (Q p _ _ S); [apply (eof_seen src (fun _ => True) (fun _ => True)); [intros; exact Logic.I | apply S] | left; reflexivity].
  - assert (Ev : ends_value c) by (destruct E as [E | [E | (E & _)]]; [right; left; exact E | right; right; left; exact E | right; right; right; exact E]).
    assert (N : ~ in_kinds (pskip p) c) by (rewrite K, in_trivia; destruct E as [E | [E | (E & _)]]; rewrite E; intros [X | X]; discriminate).
    rewrite (peek_next_spec p g (c :: r) A F N). cbn [hd_or_eof]. apply (Q p _ c S); [| exact Ev]. apply Forall_app in Sf. destruct Sf as (_ & Sf). inversion Sf; subst. assumption.
Qed.
Lemma laid_cons : forall g c gs rest, laid ((g, c) :: gs) ++ rest = g ++ c :: laid gs ++ rest.
Proof. intros. unfold laid. cbn [flat_map fst snd]. rewrite <- !app_assoc. reflexivity. Qed.
Lemma single_takes : forall d k m, single d k m -> taking d m.
Proof.
  intros d k m (S1 & S2 & _) gs F C Fr p rest Hh E. destruct (S1 _ C Fr) as (c & Ec). destruct gs as [| (g & c') [| x gs]]; try discriminate. unfold toks in Ec. cbn [map snd] in Ec. injection Ec as ->. inversion F as [| ? ? (Fg & Fl & Fp) _]; subst. rewrite laid_cons in Hh. cbn [laid flat_map app] in Hh.
  cbn [fst snd] in *. destruct (S2 p g c rest Hh Fg Fl Fp) as (q & Eq & Hq); [split; [exact C | inversion Fr; subst; assumption] |]. exists [c], q. split; assumption.
Qed.
(* fields that need not be there, all of which are single tokens *)
Definition fits (x : ty) (d : def) : Prop := single d (ty_peek x) (ty_parse x).
Lemma opts_take : forall xs ds gs, Forall2 fits xs ds -> Forall fine gs -> free (toks gs) -> (length gs <= length xs)%nat -> (forall i g d, nth_error gs i = Some g -> nth_error ds i = Some d -> conforms d [snd g]) -> takes gs (in_order (map if_ty xs)).
Proof.
  intros xs ds gs H. revert gs. induction H as [| x d xs ds Hx H IH]; intros gs F Fr L C p rest Hh E.
  - destruct gs; [| cbn [length] in L; lia]. exists [], p. split; [reflexivity | exact Hh].
  - cbn [map in_order]. unfold bind, if_ty at 1, or_peek. destruct gs as [| (g & c) gs].
    + cbn [laid flat_map app] in Hh. rewrite (ended_peek (ty_peek x) p rest (proj2 (proj2 (proj2 Hx))) Hh E). unfold ret. destruct (IH [] (Forall_nil _) Fr ltac:(cbn [length]; lia)) with (p := p) (rest := rest) as (l & q & Eq & Hq); [intros i g d0 E0; destruct i; discriminate | exact Hh | exact E |].
      exists l, q. split; [| exact Hq]. unfold pmap, bind. rewrite Eq. reflexivity.
    + rewrite laid_cons in Hh. inversion F as [| ? ? (Fg & Fl & Fp) F']; subst. cbn [fst snd] in *. unfold toks in Fr. cbn [map snd] in Fr. inversion Fr as [| ? ? K Fr']; subst. assert (T : tok d c) by (split; [exact (C 0%nat (g, c) d eq_refl eq_refl) | exact K]).
      rewrite (here_peek src f (ty_peek x) p g c (laid gs ++ rest) true Hh Fg Fl); [| intros cs Sp Sc; exact (proj1 (proj2 (proj2 Hx)) p cs c Sp Sc Fl Fp T)]. destruct (proj1 (proj2 Hx) p g c (laid gs ++ rest) Hh Fg Fl Fp T) as (q & Eq & Hq). rewrite Eq.
      destruct (IH gs F' Fr' ltac:(cbn [length] in L; lia)) with (p := q) (rest := rest) as (l & q' & Eq' & Hq'); [intros i g0 d0 E1 E2; exact (C (S i) g0 d0 E1 E2) | exact Hq | exact E |].
      exists ([c] ++ l), q'. split; [| exact Hq']. unfold pmap, bind. rewrite Eq'. reflexivity.
Qed.
(* fields that must be there *)
Lemma reqs_take : forall d k m n ms gs hs, single d k m -> length gs = n -> Forall fine gs -> free (toks gs) -> (forall g, In g gs -> conforms d [snd g]) -> takes hs (in_order ms) -> takes (gs ++ hs) (in_order (repeat m n ++ ms)).
Proof.
  intros d k m n ms gs hs Hm. revert gs. induction n as [| n IH]; intros gs L F Fr C H; destruct gs as [| (g & c) gs]; try discriminate; [exact H |]. intros p rest Hh E. cbn [app] in Hh. rewrite laid_cons in Hh. cbn [repeat app in_order]. unfold bind.
  inversion F as [| ? ? (Fg & Fl & Fp) F']; subst. cbn [fst snd] in *. unfold toks in Fr. cbn [map snd] in Fr. inversion Fr as [| ? ? K Fr']; subst. assert (T : tok d c) by (split; [exact (C (g, c) (or_introl eq_refl)) | exact K]).
  destruct (proj1 (proj2 Hm) p g c _ Hh Fg Fl Fp T) as (q & Eq & Hq). rewrite Eq. destruct (IH gs ltac:(cbn [length] in L; lia) F' Fr' ltac:(intros x I; apply C; right; exact I) H q rest Hq E) as (l & q' & Eq' & Hq'). exists ([c] ++ l), q'. split; [| exact Hq']. unfold pmap, bind. rewrite Eq'. reflexivity.
Qed.
(* lists with commas *)
Lemma list_takes : forall d k m n gs, single d k m -> Forall fine gs -> free (toks gs) -> (length gs < n)%nat -> (exists parts, Forall (conforms d) parts /\ with_commas parts (toks gs)) -> takes gs (comma_items m n).
Proof.
  intros d k m n gs Hm. revert gs. induction n as [| n IH]; intros gs F Fr L (parts & Fp & W) p rest Hh E; [lia |]. cbn [comma_items]. unfold bind.
  assert (X : exists part more, parts = part :: more) by (destruct parts as [| part more]; [destruct W | eauto]). destruct X as (part & more & ->). inversion Fp as [| ? ? Cp Fm]; subst.
  assert (Y : exists tail, toks gs = part ++ tail /\ (more = [] /\ tail = [] \/ exists c r, tail = c :: r /\ kind_of c = K_Comma /\ with_commas more r)).
  { destruct more as [| p2 more]; cbn [with_commas] in W; [exists []; rewrite app_nil_r; auto |]. destruct W as (c & r & Kc & Wr & E2). exists (c :: r). split; [exact E2 |]. right. exists c, r. auto. }
  destruct Y as (tail & Et & Y). assert (Fpart : free part) by (rewrite Et in Fr; apply Forall_app in Fr; apply Fr). destruct (proj1 Hm part Cp Fpart) as (c & ->). destruct gs as [| (g & c') gs]; [discriminate |]. unfold toks in Et. cbn [map snd app] in Et. injection Et as -> Et.
  rewrite laid_cons in Hh. inversion F as [| ? ? (Fg & Fl & Fpl) F']; subst. cbn [fst snd] in *. unfold toks in Fr. cbn [map snd] in Fr. inversion Fr as [| ? ? K Fr']; subst. destruct (proj1 (proj2 Hm) p g c _ Hh Fg Fl Fpl) as (q & Eq & Hq); [split; [exact Cp | exact K] |]. rewrite Eq. unfold if_kind, parse_if_peek.
  destruct Y as [(-> & E0) | (cm & r & E0 & Kc & Wr)].
  - destruct gs; [| discriminate]. cbn [laid flat_map app] in Hq. rewrite (ended_peek (peek_kind K_Comma) q rest ltac:(apply quiet_kind; discriminate) Hq E). exists [c], q. split; [reflexivity | exact Hq].
  - destruct gs as [| (g2 & c2) gs]; [discriminate |]. cbn [map snd] in E0. injection E0 as -> E0. rewrite laid_cons in Hq. inversion F' as [| ? ? (Fg2 & Fl2 & Fpl2) F2]; subst. cbn [fst snd] in *. cbn [map snd] in Fr'. inversion Fr' as [| ? ? K2 Fr2]; subst.
    rewrite (here_peek src f (peek_kind K_Comma) q g2 cm _ true Hq Fg2 Fl2); [| intros; unfold peek_kind; rewrite (tok_kind K_Comma cm Kc) by discriminate; reflexivity]. destruct (here_next src f q g2 cm _ Hq Fg2 Fl2) as (q2 & N & Pn & Hq2 & Sc). unfold pmap at 1, bind, parse_kind, parse_single, peek. rewrite Pn. unfold peek_kind. rewrite (tok_kind K_Comma cm Kc) by discriminate. rewrite N.
    destruct (IH gs F2 Fr2 ltac:(cbn [length] in L; lia) (ex_intro _ more (conj Fm Wr)) q2 rest Hq2 E) as (l & q' & Eq' & Hq'). unfold ret. exists ([c] ++ cm :: l), q'. split; [| exact Hq']. unfold pmap, bind. rewrite Eq'. reflexivity.
Qed.
Lemma ones : forall d parts gs, (forall cs, conforms d cs -> free cs -> exists c, cs = [c]) -> Forall (conforms d) parts -> free (toks gs) -> toks gs = concat parts -> length gs = length parts /\ forall g, In g gs -> conforms d [snd g].
Proof.
  intros d parts gs One. revert gs. induction parts as [| part parts IH]; intros gs F Fr E; cbn [concat] in E.
  - destruct gs; [| discriminate]. split; [reflexivity | intros g []].
  - inversion F as [| ? ? Cp F']; subst. rewrite E in Fr. apply Forall_app in Fr. destruct Fr as (Fp & Fr). destruct (One part Cp Fp) as (c & ->). destruct gs as [| g gs]; [discriminate |]. unfold toks in E. cbn [map app] in E. injection E as E1 E2. destruct (IH gs F') as (L & C); [unfold toks; rewrite E2; exact Fr | exact E2 |]. split; [cbn [length]; rewrite L; reflexivity |]. intros x [<- | I]; [rewrite E1; exact Cp | exact (C x I)].
Qed.

Section Generated.
Variable env : text -> option ty.
Variable sg : text -> bool.
Hypothesis env_single : forall w x, env w = Some x -> sg w = true -> single (DType (DCustom w)) (ty_peek x) (ty_parse x).
Hypothesis env_fonly : forall w x, env w = Some x -> fo w = true -> fonly (DType (DCustom w)) (ty_peek x).
Hypothesis env_whole : forall w x, env w = Some x -> whole (ty_peek x).
Notation steps_single := (steps_single src f env sg env_single).
Notation named_single := (named_single src f env sg env_single).

Lemma all_some_repeat : forall A (o : option A) n r, all_some (repeat o n) = Some r -> n = 0%nat /\ r = [] \/ exists x, o = Some x /\ r = repeat x n.
Proof.
  intros A o n. induction n as [| n IH]; intros r E; cbn [repeat] in E; [cbn [all_some] in E; apply some_inj in E; subst r; auto |]. destruct (all_some_cons _ _ _ _ E) as (x & r' & E1 & E2 & ->). right. exists x. split; [exact E1 |]. destruct (IH r' E2) as [(-> & ->) | (y & Ey & ->)]; [reflexivity |]. rewrite E1 in Ey. apply some_inj in Ey. subst y. reflexivity.
Qed.
Lemma all_some_app : forall A (l1 l2 : list (option A)) r, all_some (l1 ++ l2) = Some r -> exists r1 r2, all_some l1 = Some r1 /\ all_some l2 = Some r2 /\ r = r1 ++ r2.
Proof.
  intros A l1. induction l1 as [| a l1 IH]; intros l2 r E; cbn [app] in E; [exists [], r; auto |]. destruct (all_some_cons _ _ _ _ E) as (x & r' & E1 & E2 & ->). destruct (IH l2 r' E2) as (r1 & r2 & E3 & E4 & ->). exists (x :: r1), r2. subst a. cbn [all_some]. rewrite E3. auto.
Qed.
Lemma fits_repeat : forall x d n, fits x d -> Forall2 fits (repeat x n) (repeat d n).
Proof. intros x d n H. induction n; cbn [repeat]; constructor; assumption. Qed.
Lemma nth_repeat : forall A (x y : A) n i, nth_error (repeat x n) i = Some y -> y = x.
Proof. intros A x y n i E. apply nth_error_In in E. apply repeat_spec in E. exact E. Qed.
Lemma split_at : forall A n (l : list A), (n <= length l)%nat -> exists a b, l = a ++ b /\ length a = n.
Proof. intros A n l L. exists (firstn n l), (skipn n l). split; [symmetry; apply firstn_skipn | rewrite firstn_length; lia]. Qed.
Lemma toks_app : forall a b, toks (a ++ b) = toks a ++ toks b.
Proof. intros. apply map_app. Qed.
Lemma map_repeat : forall A B (h : A -> B) x n, map h (repeat x n) = repeat (h x) n.
Proof. intros A B h x n. induction n as [| n IH]; [reflexivity |]. cbn [repeat map]. rewrite IH. reflexivity. Qed.
Lemma copies_take : forall t a b x, sg_type sg t = true -> (1 <= a)%nat -> ordered_ty leaf_ty env (repeat (DType t) a ++ repeat (DOptional (DType t)) b) = Some x ->
  forall gs, Forall fine gs -> (a <= length gs <= a + b)%nat -> (forall g, In g gs -> conforms (DType t) [snd g]) -> free (toks gs) -> takes gs (ty_parse x).
Proof.
  intros t a b x G La E gs F Lg C Fr. assert (E' : exists steps, all_some (map (field_steps leaf_ty env) (repeat (DType t) a ++ repeat (DOptional (DType t)) b)) = Some steps /\ ty_parse x = in_order steps).
  { unfold ordered_ty in E. destruct (repeat (DType t) a ++ repeat (DOptional (DType t)) b) as [| d l]; [discriminate |]. destruct (all_some (map (field_steps leaf_ty env) (d :: l))) as [steps |]; [| discriminate]. exists steps. split; [reflexivity |]. destruct (def_peek leaf_ty env d); [| discriminate]. apply some_inj in E. subst x. reflexivity. }
  destruct E' as (steps & Es & ->). clear E. rewrite map_app, !map_repeat in Es. destruct (all_some_app _ _ _ _ Es) as (s1 & s2 & E1 & E2 & ->). cbn [field_steps] in E1, E2.
  destruct (all_some_repeat _ _ _ _ E1) as [(-> & _) | (m & Em & ->)]; [lia |]. destruct (steps_single t m Em G) as (y & Ey & Sm).
  destruct (split_at _ a gs ltac:(lia)) as (g1 & g2 & -> & L1). rewrite app_length in Lg. apply Forall_app in F. destruct F as (F1 & F2). rewrite toks_app in Fr. apply Forall_app in Fr. destruct Fr as (Fr1 & Fr2).
  apply (reqs_take (DType t) (ty_peek y) m a s2 g1 g2 Sm L1 F1 Fr1); [intros g I; apply C; apply in_or_app; left; exact I |].
  destruct (all_some_repeat _ _ _ _ E2) as [(-> & ->) | (o & Eo & ->)].
  - destruct g2; [| cbn [length] in Lg; lia]. intros p rest Hh _. exists [], p. split; [reflexivity | exact Hh].
  - rewrite Ey in Eo. cbn [option_map] in Eo. apply some_inj in Eo. subst o. rewrite <- map_repeat. apply (opts_take (repeat y b) (repeat (DType t) b)); [apply fits_repeat; exact (named_single t y Ey G) | exact F2 | exact Fr2 | rewrite repeat_length; lia |].
    intros i g d Eg Ed. apply nth_repeat in Ed. subst d. apply C. apply in_or_app. right. exact (nth_error_In _ _ Eg).
Qed.
Lemma generated_taking : forall d x, clear_of sg d = true -> generate leaf_ty env d = Some x -> taking d (ty_parse x).
Proof.
  intros d x G E. assert (Sg : sg_def sg d = true -> taking d (ty_parse x)) by (intro H; exact (single_takes _ _ _ (single_generated src f env sg env_single env_fonly env_whole d x H E))).
  destruct d as [| | t | | l s | | d m |]; try discriminate; try exact (Sg G).
  - destruct s; cbn [clear_of] in G; try exact (Sg G). destruct l as [| [| | a | | | | |] [| [| | | [| | b | | | | |] | | | |] [| ]]]; try discriminate. cbn [clear_of] in G. apply andb_prop in G. destruct G as (Ga & Gb). cbn [generate] in E. unfold ordered_ty in E. cbn [map] in E. cbn [field_steps] in E.
    destruct (all_some _) as [steps |] eqn:Es; [| discriminate]. destruct (all_some_cons _ _ _ _ Es) as (ma & r1 & Ea & Es1 & ->). destruct (all_some_cons _ _ _ _ Es1) as (mb & r2 & Eb & Es2 & ->). cbn [all_some] in Es2. apply some_inj in Es2. subst r2. destruct (def_peek leaf_ty env (DType a)) as [ka |]; [| discriminate]. apply some_inj in E. subst x. cbn [ty_parse].
    destruct (steps_single a ma Ea Ga) as (ya & _ & Sa). destruct (type_named leaf_ty env b) as [yb |] eqn:Eyb; [| discriminate]. cbn [option_map] in Eb. apply some_inj in Eb. subst mb. pose proof (named_single b yb Eyb Gb) as Sb.
    intros gs F C Fr. destruct (inv_sequence src _ _ C) as (parts & Ep & F2). inversion F2 as [| ? pa ? ps Ca F3]; subst. inversion F3 as [| ? pb ? ps2 Cb F4]; subst. inversion F4; subst. cbn [concat] in Ep. rewrite app_nil_r in Ep.
    assert (Fp : free pa /\ free pb) by (rewrite Ep in Fr; apply Forall_app in Fr; exact Fr). destruct Fp as (Fpa & Fpb). destruct (proj1 Sa pa Ca Fpa) as (c & ->). destruct gs as [| g gs]; [discriminate |]. unfold toks in Ep. cbn [map app] in Ep. injection Ep as Eg Egs.
    change (g :: gs) with ([g] ++ gs). change ([ma; if_ty yb]) with (repeat ma 1 ++ map if_ty [yb]). inversion F as [| ? ? Fg Fgs]; subst. change (g :: gs) with ([g] ++ gs) in Fr. rewrite toks_app in Fr. apply Forall_app in Fr. destruct Fr as (Fr1 & Fr2).
    apply (reqs_take (DType a) (ty_peek ya) ma 1 (map if_ty [yb]) [g] gs Sa eq_refl); [apply Forall_cons; [exact Fg | apply Forall_nil] | exact Fr1 | intros x [<- | []]; exact Ca |].
    apply (opts_take [yb] [DType b]); [constructor; [exact Sb | constructor] | exact Fgs | exact Fr2 | |].
    + destruct (inv_optional src _ _ Cb) as [E0 | Cb']; [destruct gs; [cbn [length]; lia | cbn [map] in E0; discriminate] |]. destruct (proj1 Sb _ Cb' Fpb) as (c & Ec). destruct gs as [| ? [| ? gs]]; cbn [map length] in *; try discriminate; lia.
    + intros i g0 d0 E0 Ed. destruct i as [| i]; [| destruct i; discriminate]. cbn [nth_error] in Ed. apply some_inj in Ed. subst d0. destruct gs as [| g1 gs]; [discriminate |]. cbn [nth_error] in E0. apply some_inj in E0. subst g0. destruct (inv_optional src _ _ Cb) as [E0 | Cb']; [cbn [map] in E0; discriminate |]. destruct (proj1 Sb _ Cb' Fpb) as (c & Ec). destruct gs; cbn [map] in *; [exact Cb' | discriminate].
  - destruct d as [| | t | | | | |]; try discriminate; try exact (Sg G). destruct m as [| | r | r]; try discriminate; destruct r as [| lo hi | | | k]; try discriminate; cbn [clear_of] in G; try exact (Sg G).
    + cbn [generate] in E. destruct (def_peek leaf_ty env (DType t)) as [k |]; [| discriminate]. destruct (type_steps leaf_ty env t) as [m |] eqn:Em; [| discriminate]. apply some_inj in E. subst x. cbn [ty_parse]. destruct (steps_single t m Em G) as (y & _ & Sm).
      intros gs F C Fr. destruct (inv_list src _ _ _ C) as (parts & Fp & _ & W). intros p rest Hh E. unfold comma_separated. apply (list_takes (DType t) (ty_peek y) m (sfuel p) gs Sm F Fr); [| exists parts; auto | exact Hh | exact E].
      pose proof (sfuel_more p _ (proj1 (proj2 (proj2 (proj1 Hh))))) as X. rewrite app_length in X. assert (Y : (length gs <= length (laid gs))%nat). { clear. induction gs as [| (g & c) gs IH]; [cbn [length laid flat_map]; lia |]. unfold laid in *. cbn [flat_map length fst snd]. rewrite !app_length. cbn [length]. lia. } lia.
    + apply andb_prop in G. destruct G as (G & G3). apply andb_prop in G. destruct G as (G1 & G2). cbn [generate] in E. unfold copies in E. intros gs F C Fr. destruct (inv_many src _ _ _ C) as (parts & Ep & Fp & Cf). cbn [count_fits] in Cf.
      assert (One : forall cs, conforms (DType t) cs -> free cs -> exists c, cs = [c]).
      { assert (Y : exists y, type_named leaf_ty env t = Some y). { unfold ordered_ty in E. replace (N.to_nat (N.min lo hi)) with (S (N.to_nat lo - 1))%nat in E by lia. cbn [repeat app] in E. destruct (all_some _); [| discriminate]. cbn [def_peek] in E. destruct (type_named leaf_ty env t); [eauto | discriminate]. }
        destruct Y as (y & Ey). apply (named_single t y Ey G1). }
      destruct (ones (DType t) parts gs One Fp Fr Ep) as (L & Cg). apply (copies_take t (N.to_nat (N.min lo hi)) (N.to_nat (hi - lo)) x G1); [lia | exact E | exact F | lia | exact Cg | exact Fr].
    + apply andb_prop in G. destruct G as (G1 & G2). cbn [generate] in E. intros gs F C Fr. destruct (inv_many src _ _ _ C) as (parts & Ep & Fp & Cf). cbn [count_fits] in Cf.
      assert (One : forall cs, conforms (DType t) cs -> free cs -> exists c, cs = [c]).
      { assert (Y : exists y, type_named leaf_ty env t = Some y). { unfold ordered_ty in E. replace (N.to_nat k) with (S (N.to_nat k - 1))%nat in E by lia. cbn [repeat app] in E. destruct (all_some _); [| discriminate]. cbn [def_peek] in E. destruct (type_named leaf_ty env t); [eauto | discriminate]. }
        destruct Y as (y & Ey). apply (named_single t y Ey G1). }
      destruct (ones (DType t) parts gs One Fp Fr Ep) as (L & Cg). apply (copies_take t (N.to_nat k) 0 x G1); [lia | cbn [repeat]; rewrite app_nil_r; exact E | exact F | lia | exact Cg | exact Fr].
Qed.
End Generated.
End Several.
