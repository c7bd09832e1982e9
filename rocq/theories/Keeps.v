(* The parsers of declarations leave the modes of the parser (what it skips, where it stops, its state) as they were, whether they
   succeed or fail. *)
From Coq Require Import String.
From Coq Require Import List.
From Verif Require Import AstSheet Values CompareProofs FaithProofs Goes SpecConforms Tells ValuesTotal PropValues3.
Open Scope N_scope.
Open Scope list_scope.

Definition modes (p q : parser) : Prop := pskip q = pskip p /\ pstate q = pstate p /\ pstop q = pstop p.
Definition kv {A} (p : parser) (o : option (res A * parser)) : Prop := forall r q, o = Some (r, q) -> modes p q.
Definition keeps {A} (m : P A) : Prop := forall p, kv p (m p).
Lemma modes_refl : forall p, modes p p.
Proof. intro p. split; [| split]; reflexivity. Qed.
Lemma modes_trans : forall p q r, modes p q -> modes q r -> modes p r.
Proof. intros p q r (A & B & C) (D & E & F). unfold modes. rewrite D, E, F. auto. Qed.
Lemma kv_none : forall A p, @kv A p None.
Proof. intros A p r q E. discriminate. Qed.
Lemma kv_here : forall A p (r : res A), kv p (Some (r, p)).
Proof. intros A p r r' q E. injection E as _ <-. apply modes_refl. Qed.
Lemma k_bind : forall A B (m : P A) (g : A -> P B), keeps m -> (forall a, keeps (g a)) -> keeps (bind m g).
Proof.
  intros A B m g Hm Hg p r q E. unfold bind in E. destruct (m p) as [[[a | e] p'] |] eqn:Em; [| | discriminate]; pose proof (Hm p _ _ Em) as M; [exact (modes_trans _ _ _ M (Hg a p' r q E)) | injection E as _ <-; exact M].
Qed.
Lemma k_ret : forall A (a : A), keeps (ret a).
Proof. intros A a p. apply kv_here. Qed.
Lemma k_fail : forall A e, keeps (@fail A e).
Proof. intros A e p. apply kv_here. Qed.
Lemma k_pmap : forall A B (h : A -> B) (m : P A), keeps m -> keeps (pmap h m).
Proof. intros A B h m H. unfold pmap. apply k_bind; [exact H |]. intro a. apply k_ret. Qed.
Lemma k_or : forall A k (m e : P A), keeps m -> keeps e -> keeps (or_peek k m e).
Proof. intros A k m e Hm He p. unfold or_peek. destruct (peek k p) as [[] |]; [apply Hm | apply He | apply kv_none]. Qed.
Lemma k_if : forall A k (m : P A), keeps m -> keeps (parse_if_peek k m).
Proof. intros A k m H p. unfold parse_if_peek. destruct (peek k p) as [[] |]; [apply k_pmap; exact H | apply kv_here | apply kv_none]. Qed.
Lemma or_peek_inv' : forall A k (m e : P A) p r q, or_peek k m e p = Some (r, q) -> m p = Some (r, q) \/ e p = Some (r, q).
Proof. intros A k m e p r q E. unfold or_peek in E. destruct (peek k p) as [[] |]; [left | right | discriminate]; exact E. Qed.
Lemma next_modes : forall p c q, next p = Some (c, q) -> modes p q.
Proof. intros p c q E. unfold next in E. destruct (next_loop _ _ _ _) as [[[c' x] t] |]; [| discriminate]. injection E as _ <-. split; [| split]; reflexivity. Qed.
Lemma k_built : forall A k (build : parser -> cursor -> option A), keeps (parse_built k build).
Proof.
  intros A k build p r q E. unfold parse_built in E. destruct (peek k p) as [b |]; [| discriminate]. destruct (next p) as [[c q'] |] eqn:N; [| discriminate]. pose proof (next_modes _ _ _ N) as M. destruct b; [destruct (build q' c); [| discriminate] |]; injection E as _ <-; exact M.
Qed.
Lemma k_single : forall A k (g : cursor -> A), keeps (parse_single k g).
Proof. intros A k g. change (parse_single k g) with (parse_built k (fun _ c => Some (g c))). apply k_built. Qed.
Lemma k_set : forall V k (m : list (text * V)), keeps (parse_set k m).
Proof. intros V k m. change (parse_set k m) with (parse_built (peek_set k m) (build_set m)). apply k_built. Qed.
Lemma k_fail_text : forall A c d, keeps (@fail_text A c d).
Proof. intros A c d p. unfold fail_text. destruct (parse_str _ _); [apply kv_here | apply kv_none]. Qed.
Lemma k_unexpected_next : forall A, keeps (@unexpected_next A).
Proof. intros A p r q E. unfold unexpected_next in E. destruct (next p) as [[c q'] |] eqn:N; [| discriminate]. injection E as _ <-. exact (next_modes _ _ _ N). Qed.
Lemma k_whitespace : keeps parse_whitespace.
Proof.
  intros p r q E. unfold parse_whitespace in E. destruct (next (set_skip p KS_COMMENTS)) as [[c q'] |] eqn:N; [| discriminate]. destruct (next_modes _ _ _ N) as (_ & M2 & M3).
  assert (M : modes p (set_skip q' (pskip p))) by (split; [reflexivity |]; split; [exact M2 | exact M3]). cbv zeta in E. destruct (tok_is (ctok c) K_Whitespace); injection E as _ <-; exact M.
Qed.
Lemma k_state : forall A s (m : P A), keeps m -> keeps (in_state s m).
Proof. intros A s m H p r q E. unfold in_state in E. destruct (m (set_state p s)) as [[r' q'] |] eqn:Em; [| discriminate]. injection E as _ <-. destruct (H _ _ _ Em) as (M1 & _ & M3). split; [exact M1 |]. split; [reflexivity | exact M3]. Qed.
Lemma k_stop : forall A s (m : P A), keeps m -> keeps (in_stop s m).
Proof. intros A s m H p r q E. unfold in_stop in E. destruct (m (set_stop p s)) as [[r' q'] |] eqn:Em; [| discriminate]. injection E as _ <-. destruct (H _ _ _ Em) as (M1 & M2 & _). split; [exact M1 |]. split; [exact M2 | reflexivity]. Qed.
Lemma k_opt_ok : forall A (m : P A), keeps m -> keeps (opt_ok m).
Proof. intros A m H p r q E. unfold opt_ok in E. destruct (m p) as [[[a | e] q'] |] eqn:Em; [| | discriminate]; injection E as _ <-; exact (H _ _ _ Em). Qed.
Lemma k_order : forall l, Forall keeps l -> keeps (in_order l).
Proof. intros l F. induction F as [| m l Hm F IH]; cbn [in_order]; [apply k_ret |]. apply k_bind; [exact Hm |]. intro a. apply k_pmap. exact IH. Qed.

Ltac kv_ := lazymatch goal with
  | |- kv _ None => apply kv_none
  | |- kv ?p (Some (_, ?p)) => apply kv_here
  | |- kv _ (match ?x with _ => _ end) => destruct x; kv_
  | |- kv ?p (?m ?p) => cut (keeps m); [let H := fresh in intro H; exact (H p) | kp]
  end
with kp := lazymatch goal with
  | H : keeps ?m |- keeps ?m => exact H
  | |- keeps (bind _ _) => apply k_bind; [kp | let a := fresh in intro a; cbv beta; kp]
  | |- keeps (pmap _ _) => apply k_pmap; kp
  | |- keeps (or_peek _ _ _) => apply k_or; [kp | kp]
  | |- keeps (parse_if_peek _ _) => apply k_if; kp
  | |- keeps (ret _) => apply k_ret
  | |- keeps (fail _) => apply k_fail
  | |- keeps (fail_text _ _) => apply k_fail_text
  | |- keeps (parse_single _ _) => apply k_single
  | |- keeps (parse_built _ _) => apply k_built
  | |- keeps (parse_set _ _) => apply k_set
  | |- keeps (parse_kind _) => apply k_single
  | |- keeps (parse_delim _) => apply k_single
  | |- keeps parse_any => apply k_single
  | |- keeps parse_pos => apply k_built
  | |- keeps parse_pair_start => apply k_single
  | |- keeps parse_pair_end => apply k_single
  | |- keeps (if_kind _) => apply k_if; apply k_single
  | |- keeps parse_whitespace => apply k_whitespace
  | |- keeps unexpected_next => apply k_unexpected_next
  | |- keeps (in_state _ _) => apply k_state; kp
  | |- keeps (in_stop _ _) => apply k_stop; kp
  | |- keeps (opt_ok _) => apply k_opt_ok; kp
  | |- keeps (one _) => apply k_pmap, k_single
  | |- keeps (opt _) => apply k_or; [apply k_pmap, k_single | apply k_ret]
  | |- keeps (parse_words _) => apply k_pmap, k_set
  | |- keeps (opt_words _) => apply k_or; [apply k_pmap, k_set | apply k_ret]
  | |- keeps opt_comma => apply k_or; [apply k_pmap, k_single | apply k_ret]
  | |- keeps opt_slash => apply k_or; [apply k_pmap, k_single | apply k_ret]
  | |- keeps close_paren => apply k_pmap; apply k_if; apply k_single
  | |- keeps (in_order _) => apply k_order; kf
  | |- keeps (match ?x with _ => _ end) => destruct x; kp
  | |- keeps (fun _ => _) => let p := fresh in intro p; cbv beta; kv_
  end
with kf := lazymatch goal with |- Forall _ [] => apply Forall_nil | |- Forall _ (_ :: _) => apply Forall_cons; [kp | kf] end.

(* ---- component values ---- *)
Lemma k_cv : forall n, keeps (cv_fuel n) /\ keeps (values_fuel n) /\ keeps (args_fuel n).
Proof.
  induction n as [| n (IH1 & IH2 & IH3)]; [split; [| split]; intros p; apply kv_none |].
  assert (T : keeps cv_tokens) by (unfold cv_tokens; generalize CV_KINDS; intro l; induction l as [| k l IH]; cbn [fold_right]; [apply k_unexpected_next | apply k_or; [kp | exact IH]]).
  split; [| split]; cbn [cv_fuel values_fuel args_fuel].
  - apply k_or; [kp |]. apply k_or; [apply k_state; unfold block_with; kp |]. apply k_or; [unfold function_with; kp | exact T].
  - kp.
  - kp.
Qed.
Lemma k_values : keeps parse_component_values.
Proof. intro p. exact (proj1 (proj2 (k_cv (sfuel p))) p). Qed.
Lemma k_free : keeps parse_free_value.
Proof. unfold parse_free_value. apply k_state, k_stop. exact k_values. Qed.

(* ---- the types of values ---- *)
Lemma k_function_named : forall name m, keeps m -> keeps (function_named name m).
Proof. intros name m H. unfold function_named. kp. Qed.
Lemma k_comma : forall m, keeps m -> keeps (comma_separated m).
Proof.
  intros m H. assert (G : forall n, keeps (comma_items m n)) by (intro n; induction n as [| n IH]; cbn [comma_items]; kp). intro p. exact (G (sfuel p) p).
Qed.
Lemma k_function_of : forall name m, keeps m -> keeps (function_of name m).
Proof. intros name m H. apply k_function_named. kp. Qed.
Lemma k_unexpected_any : forall A, keeps (@unexpected_any A).
Proof. intro A. unfold unexpected_any. kp. Qed.
Lemma k_color : keeps parse_color.
Proof.
  assert (K1 : keeps parse_color_ident) by (unfold parse_color_ident; kp). assert (K2 : forall s, keeps (color_arguments s)) by (intros []; cbn [color_arguments]; kp).
  assert (K3 : keeps parse_color_function) by (unfold parse_color_function; apply k_bind; [kp |]; intro a; apply k_pmap, k_order; apply Forall_cons; [apply K2 |]; kf). unfold parse_color. kp.
Qed.
Lemma k_position : keeps parse_position.
Proof. assert (K : forall a b, keeps (position_four a b)) by (intros a b; unfold position_four; kp). unfold parse_position. apply k_bind; [kp |]. intro a. apply k_or; [| kp]. apply k_bind; [kp |]. intro b. apply k_or; [apply K |]. pose proof (K a b) as Kab. kp. Qed.
Lemma k_stops : keeps parse_stops.
Proof.
  pose proof k_color as Kc. assert (G : forall n b, keeps (stops_loop n b)) by (intro n; induction n as [| n IH]; intro b; cbn [stops_loop]; [kp |]; apply k_bind; [kp |]; intro h; apply k_bind; [kp |]; intro c; apply k_bind; [kp |]; intro l; apply k_bind; [kp |]; intros [x |]; [apply k_pmap, IH | kp]). intro p. exact (G (sfuel p) false p).
Qed.
Lemma k_gradient : keeps parse_gradient.
Proof.
  pose proof k_stops as Ks. pose proof k_position as Kp. assert (Kd : keeps parse_direction) by (unfold parse_direction; kp). assert (Kr : keeps parse_radial_size) by (unfold parse_radial_size; kp). assert (Ka : forall c, keeps (radial_at c)) by (intro c; unfold radial_at; kp).
  assert (K : forall m, keeps m -> keeps (parse_radial m)) by (intros m H; unfold parse_radial; kp). unfold parse_gradient. apply k_bind; [kp |]. intro a. apply k_pmap. destruct (fst a); [kp | |]; apply K; [| apply Ka]. intro p. destruct (peek_n p 1); [apply Ka | apply kv_none].
Qed.
Lemma k_image : keeps parse_image.
Proof. pose proof k_gradient as Kg. unfold parse_image. apply k_or; [kp |]. apply k_or; [kp |]. apply k_function_named. kp. Qed.
Lemma k_image1d : keeps (ty_parse IMAGE_1D).
Proof.
  pose proof k_color as Kc. assert (K : keeps parse_stripe) by (unfold parse_stripe; kp). cbn [ty_parse IMAGE_1D]. apply k_function_named. assert (G : forall n, keeps (stripes_loop n)) by (intro n; induction n as [| n IH]; cbn [stripes_loop]; kp). intro p. exact (G (sfuel p) p).
Qed.
Lemma k_area : keeps parse_area.
Proof. pose proof (@k_unexpected_any) as Ku. unfold parse_area, area_second, area_swapped. repeat (apply k_or; [kp |]). apply Ku. Qed.
Lemma k_leaf : forall t, keeps (ty_parse (leaf_ty t)).
Proof. intro t. destruct t; cbn [leaf_ty]; lazymatch goal with |- keeps (ty_parse COLOR) => exact k_color | |- keeps (ty_parse IMAGE) => exact k_image | |- keeps (ty_parse IMAGE_1D) => exact k_image1d | |- _ => apply k_pmap, k_single end. Qed.
Lemma k_named : Forall (fun x => keeps (ty_parse (snd x))) NAMED_TYPES.
Proof.
  assert (Mx : keeps (ty_parse RANGE_LIMIT_MIX)).
  { cbn [ty_parse RANGE_LIMIT_MIX]. apply k_function_named. assert (G : forall n, keeps (mix_loop n)) by (intro n; induction n as [| n IH]; cbn [mix_loop]; kp). intro p. exact (G (sfuel p) p). }
  unfold NAMED_TYPES. cbn [map fst snd]. repeat (apply Forall_cons; [cbn [fst snd]; lazymatch goal with
    | |- keeps (ty_parse (words_ty _)) => apply k_pmap, k_set
    | |- keeps (ty_parse (snap_ty _ _)) => apply k_function_of; kp
    | |- keeps (ty_parse POSITION_AREA) => exact k_area
    | |- keeps (ty_parse ITERATION_COUNT) => cbn [ty_parse ITERATION_COUNT]; unfold parse_iteration_count; kp
    | |- keeps (ty_parse REPEAT_STYLE) => cbn [ty_parse REPEAT_STYLE]; unfold parse_repeat_style; kp
    | |- keeps (ty_parse RANGE_LIMIT_MIX) => exact Mx
    | |- keeps (ty_parse ANIMATEABLE_FEATURE) => apply k_pmap, k_built
    | |- keeps (ty_parse CALC_SIZE) => cbn [ty_parse CALC_SIZE]; kp
    | |- _ => apply k_pmap, k_single end |]). apply Forall_nil.
Qed.

(* ---- what the macro generates ---- *)
Section Generated.
Variable env : text -> option ty.
Hypothesis Henv : forall w t, env w = Some t -> keeps (ty_parse t).
Lemma k_type_named : forall t x, type_named leaf_ty env t = Some x -> keeps (ty_parse x).
Proof. intros t x E. destruct t; cbn [type_named] in E; lazymatch type of E with env _ = _ => exact (Henv _ _ E) | _ => apply some_inj in E; rewrite <- E; apply k_leaf end. Qed.
Lemma k_steps : forall t m, type_steps leaf_ty env t = Some m -> keeps m.
Proof.
  intros t m E. unfold type_steps in E. destruct (range_compiles _); [| discriminate]. destruct (type_named leaf_ty env t) as [x |] eqn:Ex; [| discriminate]. cbn [option_map] in E. apply some_inj in E. subst m. apply k_bind; [exact (k_type_named t x Ex) |]. intro a. unfold range_check. destruct (type_checks t); kp.
Qed.
Lemma k_alternative : forall d m, alternative_steps leaf_ty env d = Some m -> keeps m.
Proof.
  intros d m E. destruct d as [w | w d | t' | d | l s | d s | d x | ch]; cbn [alternative_steps] in E; try discriminate.
  - destruct d as [| | t' | | | | [] x |]; try discriminate; [| destruct x as [| | [] | []]; try discriminate]; destruct (type_steps leaf_ty env _) as [y |] eqn:Ey; try discriminate; cbn [option_map] in E; apply some_inj in E; subst m; apply k_function_of; [| apply k_comma]; exact (k_steps _ _ Ey).
  - exact (k_steps _ _ E).
  - destruct d as [| | t' | | | | |]; try discriminate. destruct x as [| | [] | []]; try discriminate; destruct (type_steps leaf_ty env _) as [y |] eqn:Ey; try discriminate; cbn [option_map] in E; apply some_inj in E; subst m.
    + apply k_comma. exact (k_steps _ _ Ey).
    + apply k_order. apply Forall_forall. intros z Iz. apply repeat_spec in Iz. subst z. exact (k_steps _ _ Ey).
Qed.
Lemma k_field : forall d m, field_steps leaf_ty env d = Some m -> keeps m.
Proof.
  intros d m E. destruct d as [w | w d | t' | d | l s | d s | d x | ch]; cbn [field_steps] in E; try discriminate; [exact (k_steps _ _ E) |]. destruct d; try discriminate. destruct (type_named leaf_ty env _) as [y |] eqn:Ey; try discriminate. cbn [option_map] in E. apply some_inj in E. subst m. unfold if_ty. apply k_or; [exact (k_type_named _ _ Ey) | apply k_ret].
Qed.
Lemma k_ordered : forall l t, ordered_ty leaf_ty env l = Some t -> keeps (ty_parse t).
Proof.
  intros l t E. unfold ordered_ty in E. destruct l as [| d l]; [discriminate |]. destruct (all_some (map (field_steps leaf_ty env) (d :: l))) as [steps |] eqn:Es; [| discriminate]. destruct (def_peek leaf_ty env d) as [k |]; [| discriminate]. cbn [option_map] in E. apply some_inj in E. subst t. cbn [ty_parse]. apply k_order. apply Forall_forall. intros m Im.
  pose proof (all_some_in _ _ _ Es m Im) as X. apply in_map_iff in X. destruct X as (e & Ee & _). exact (k_field e m Ee).
Qed.
Lemma k_alternatives : forall l m, alternatives leaf_ty env l = Some m -> keeps m.
Proof.
  intros l m E. unfold alternatives in E. destruct (all_some (map (def_peek leaf_ty env) _)) as [ks |]; [| discriminate]. destruct (all_some (map (alternative_steps leaf_ty env) _)) as [ms |] eqn:Es; [| discriminate].
  assert (F : Forall keeps ms) by (apply Forall_forall; intros x Ix; pose proof (all_some_in _ _ _ Es x Ix) as X; apply in_map_iff in X; destruct X as (e & Ee & _); exact (k_alternative e x Ee)).
  assert (R : keeps (if takes_custom l then one (peek_kind K_Ident) else match ms with [] => unexpected_ident | [m] => m | _ => one_of (List.combine ks ms) end)).
  { destruct (takes_custom l); [kp |]. destruct ms as [| m1 [| m2 ms]]; [unfold unexpected_ident; kp | exact (Forall_inv F) |]. clear - F. revert ks F. generalize (m1 :: m2 :: ms). intro l. induction l as [| x l IH]; intros ks F; destruct ks as [| k ks]; cbn [List.combine one_of]; try apply k_unexpected_any. inversion F; subst. apply k_or; [assumption | apply IH; assumption]. }
  cbv zeta in E. destruct (existsb is_keyword l); [| apply some_inj in E; subst m; exact R]. destruct (keywords_of l) as [| w ws]; [discriminate |]. apply some_inj in E. subst m. apply k_bind; [kp |]. intros [x |]; [apply k_ret | exact R].
Qed.
Lemma k_any_order : forall l, Forall (fun t => keeps (ty_parse t)) l -> keeps (in_any_order l).
Proof.
  assert (Fi : forall l, Forall (fun x : ty * option (list cursor) => keeps (ty_parse (fst x))) l -> forall p r q, fill_field l p = Some (r, q) -> modes p q /\ forall o, r = Ok (Some o) -> Forall (fun x => keeps (ty_parse (fst x))) o).
  { intros l F. induction F as [| (t, o) l H F IH]; cbn [fill_field]; intros p r q E; [injection E as <- <-; split; [apply modes_refl | intros o X; discriminate] |]. cbn [fst] in H.
    assert (N : pmap (option_map (cons (t, o))) (fill_field l) p = Some (r, q) -> modes p q /\ forall o, r = Ok (Some o) -> Forall (fun x => keeps (ty_parse (fst x))) o).
    { intro E'. unfold pmap, bind in E'. destruct (fill_field l p) as [[[a | e] q'] |] eqn:Ef; [| | discriminate]; destruct (IH p _ _ Ef) as (M & K); unfold ret in E'; injection E' as <- <-; (split; [exact M |]); intros z Ez; [| discriminate]. injection Ez as Ez. destruct a as [a |]; cbn [option_map] in Ez; [| discriminate]. injection Ez as <-. apply Forall_cons; [exact H | exact (K a eq_refl)]. }
    destruct o as [c |]; [exact (N E) |]. destruct (or_peek_inv' _ _ _ _ _ _ _ E) as [E' | E']; [| exact (N E')]. unfold pmap, bind in E'. destruct (ty_parse t p) as [[[a | e] q'] |] eqn:Et; [| | discriminate]; pose proof (H p _ _ Et) as M; unfold ret in E'; injection E' as <- <-; (split; [exact M |]); intros z Ez; [| discriminate]. injection Ez as <-. apply Forall_cons; [exact H | exact F]. }
  assert (Lo : forall n l, Forall (fun x : ty * option (list cursor) => keeps (ty_parse (fst x))) l -> keeps (options_loop n l)).
  { intro n. induction n as [| n IH]; intros l F; cbn [options_loop]; [kp |]. intros p r q E. unfold bind in E. destruct (fill_field l p) as [[[a | e] q'] |] eqn:Ef; [| | discriminate]; destruct (Fi l F p _ _ Ef) as (M & K); [| injection E as _ <-; exact M]. destruct a as [l' |]; [exact (modes_trans _ _ _ M (IH l' (K l' eq_refl) q' r q E)) |]. destruct (forallb _ l); [exact (modes_trans _ _ _ M (k_unexpected_any _ q' r q E)) |]. injection E as _ <-. exact M. }
  intros l F. unfold in_any_order. apply Lo. apply Forall_forall. intros x Ix. apply in_map_iff in Ix. destruct Ix as (t & <- & It). rewrite Forall_forall in F. exact (F t It).
Qed.
Lemma k_generate : forall d t, generate leaf_ty env d = Some t -> keeps (ty_parse t).
Proof.
  intros d t E. destruct d as [w | w d | t' | d | l s | d s | d x | ch]; cbn [generate] in E; try discriminate.
  - destruct (def_peek leaf_ty env (DType t')); [| discriminate]. destruct (type_steps leaf_ty env t') as [q |] eqn:Em; [| discriminate]. apply some_inj in E. subst t. exact (k_steps t' q Em).
  - destruct s; try discriminate.
    + exact (k_ordered l t E).
    + match type of E with match ?X with _ => _ end = _ => destruct X as [ts |] eqn:Et; [| discriminate] end. apply some_inj in E. subst t. cbn [ty_parse]. apply k_any_order. apply Forall_forall. intros x Ix.
      pose proof (all_some_in _ _ _ Et x Ix) as X. apply in_map_iff in X. destruct X as (e & Ee & Ie). destruct e; try discriminate. exact (k_type_named t x Ee).
    + destruct (all_some (map (def_peek leaf_ty env) l)) as [ks |]; [| discriminate]. destruct (alternatives leaf_ty env l) as [q |] eqn:Em; [| discriminate]. apply some_inj in E. subst t. exact (k_alternatives l q Em).
  - destruct d as [| | t' | | | | |]; try discriminate. destruct x as [| | [] | []]; try discriminate.
    + destruct (def_peek leaf_ty env (DType t')); [| discriminate]. destruct (type_steps leaf_ty env t') as [q |] eqn:Em; [| discriminate]. apply some_inj in E. subst t. apply k_comma. exact (k_steps t' q Em).
    + exact (k_ordered _ t E).
    + exact (k_ordered _ t E).
Qed.
End Generated.
Lemma k_value : forall n name t, value_ty n name = Some t -> keeps (ty_parse t).
Proof.
  intro n. induction n as [| n IH]; intros name t E; cbn [value_ty] in E; destruct (map_get NAMED_TYPES name) as [x |] eqn:En.
  - apply some_inj in E. subst x. pose proof k_named as X. rewrite Forall_forall in X. exact (X _ (map_get_in _ _ _ _ En)).
  - discriminate.
  - apply some_inj in E. subst x. pose proof k_named as X. rewrite Forall_forall in X. exact (X _ (map_get_in _ _ _ _ En)).
  - destruct (map_get VALUE_DEFS name) as [[d |] |]; try discriminate. exact (k_generate (value_ty n) IH d t E).
Qed.
Lemma values_keep : forall name m, In (name, m) VALUES -> keeps m.
Proof. intros name m I. destruct (property_value name m I) as (r & d & t & _ & _ & _ & _ & G & -> & _). exact (k_generate (value_ty 4) (k_value 4) d t G). Qed.
(* a declaration *)
Lemma k_style_value : forall name, keeps (parse_style_value VALUES name).
Proof.
  intro name. pose proof k_free as Kf. unfold parse_style_value. intro p. destruct (is_dashed_ident (ctok name)); [apply k_pmap; exact Kf |]. revert p. change (keeps (bind (parse_if_peek (peek_set K_Ident (words WIDE_KEYWORDS)) (parse_set K_Ident (words WIDE_KEYWORDS))) (fun kw => match kw with Some w => ret (SvKeyword w) | None => or_peek peek_computed (pmap SvComputed parse_free_value) (fun p => let ck := checkpoint p in match (if tok_is (ctok name) K_Ident then look_up VALUES p name else Some None) with
        | None => None | Some None => fallback_value ck p | Some (Some value_p) => match value_p p with None => None | Some (Err _, q) => fallback_value ck q | Some (Ok cs, q) => match value_ends q with None => None | Some true => match parse_str_lower name (lsrc (plex q)) with None => None | Some w => Some (Ok (SvKnown w cs), q) end | Some false => fallback_value ck q end end end) end))).
  apply k_bind; [kp |]. intros [w |]; [apply k_ret |]. apply k_or; [kp |]. intro p. cbv zeta. assert (Fb : forall q, modes p q -> kv p (fallback_value (checkpoint p) q)).
  { intros q M r q' E. apply (modes_trans p q); [exact M |]. unfold fallback_value in E. destruct (peek peek_computed q) as [[] |]; [| | discriminate]; exact (k_pmap _ _ _ _ Kf (rewind q (checkpoint p)) r q' E). }
  destruct (tok_is (ctok name) K_Ident); [| apply Fb, modes_refl]. unfold look_up. destruct (parse_str_lower name _) as [w |]; [| apply kv_none]. destruct (map_get VALUES w) as [m |] eqn:Mg; [| apply Fb, modes_refl]. pose proof (values_keep w m (map_get_in _ _ _ _ Mg)) as Km.
  destruct (m p) as [[[l | e] q] |] eqn:Em; [| | apply kv_none]; pose proof (Km p _ _ Em) as M; [| exact (Fb q M)]. destruct (value_ends q) as [[] |]; [| exact (Fb q M) | apply kv_none]. destruct (parse_str_lower name _); [| apply kv_none]. intros r q' E. injection E as _ <-. exact M.
Qed.
Lemma k_property : keeps (parse_property VALUES).
Proof.
  unfold parse_property. apply k_pmap. unfold declaration_t. apply k_bind; [kp |]. intro name. intro p. cbv beta. revert p. change (keeps (bind (parse_kind K_Colon) (fun colon => bind (parse_style_value VALUES name) (fun value => bind (parse_if_peek peek_important parse_important) (fun important => ret (name, colon, value, important)))))).
  apply k_bind; [kp |]. intro colon. apply k_bind; [apply k_style_value |]. intro v. apply k_bind; [| intro; kp]. apply k_if. unfold parse_important. kp.
Qed.
