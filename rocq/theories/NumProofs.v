(* Numbers: the scanner takes the longest prefix matching the CSS number grammar. *)
From Coq Require Import ZifyBool ZifyNat ZifyN.
From Verif Require Import Lexer SpecLex LexBase ScanProofs ScanProofs2.
Open Scope N_scope.
Open Scope list_scope.
Ltac Zify.zify_post_hook ::= Z.div_mod_to_equations.

Definition dot_digit (l : list N) : Prop := exists d r, l = 46 :: d :: r /\ digit d.
Definition starts_exp (l : list N) : Prop := exists x r, l = x ++ r /\ exponent x.

Record num_parts (l s i fr x r : list N) : Prop := {
  np_eq : l = s ++ i ++ fr ++ x ++ r;
  np_sign : opt_sign s;
  np_int : digits i;
  np_int_max : ~ starts digit (fr ++ x ++ r);
  np_frac : (fr = [] /\ ~ dot_digit (x ++ r)) \/ (exists f, fr = 46 :: f /\ digits1 f /\ ~ starts digit (x ++ r));
  np_nonempty : i <> [] \/ fr <> [];
  np_exp : (x = [] /\ ~ starts_exp r) \/ (exponent x /\ ~ starts digit r) }.

(* a digit prefix is a prefix of the maximal digit run *)
Lemma run_prefix : forall d r d' y, digits d -> ~ starts digit r -> d ++ r = d' ++ y -> digits d' ->
  exists t, d = d' ++ t /\ y = t ++ r.
Proof.
  induction d as [| c d IH]; intros r d' y D N0 E D'.
  - cbn in E. destruct d' as [| c' d']; [exists []; auto |].
    exfalso. apply N0. rewrite E. cbn. rewrite starts_cons. now inversion D'.
  - destruct d' as [| c' d']; [exists (c :: d); cbn in *; auto |].
    inversion E; subst. inversion D; inversion D'; subst.
    destruct (IH r d' y) as (t & -> & ->); auto. exists t. auto.
Qed.
Lemma digit_not_sign : forall c, digit c -> c <> 43 /\ c <> 45 /\ c <> 46 /\ c <> 101 /\ c <> 69.
Proof. unfold digit. intros. lia. Qed.

Lemma mantissa_head : forall m y, mantissa m -> exists c r, m ++ y = c :: r /\ (digit c \/ c = 46).
Proof.
  intros m y [(NE & D) | (i & f & -> & D & F)].
  - destruct m as [| c m]; [congruence |]. inversion D; subst. exists c, (m ++ y). auto.
  - destruct i as [| c i].
    + exists 46, (f ++ y). auto.
    + inversion D; subst. exists c, ((i ++ 46 :: f) ++ y). auto.
Qed.
Lemma sign_unique : forall s s' l l', opt_sign s -> opt_sign s' -> s ++ l = s' ++ l' ->
  (exists c r, l = c :: r /\ (digit c \/ c = 46)) -> (exists c r, l' = c :: r /\ (digit c \/ c = 46)) -> s = s' /\ l = l'.
Proof.
  intros s s' l l' Hs Hs' E (c & r & -> & Hc) (c' & r' & -> & Hc').
  unfold opt_sign in *. unfold digit in *.
  destruct Hs as [-> | [-> | ->]], Hs' as [-> | [-> | ->]]; cbn in E; inversion E; subst; auto; exfalso; lia.
Qed.

Lemma exponent_head : forall x, exponent x -> exists e y, x = e :: y /\ (e = 101 \/ e = 69).
Proof. intros x (e & s & d & -> & H & _). exists e, (s ++ d). auto. Qed.

(* two exponents at the same place: the maximal one is longest *)
Lemma exponent_max : forall x r x' r', exponent x -> ~ starts digit r -> exponent x' -> x ++ r = x' ++ r' -> (length x' <= length x)%nat.
Proof.
  intros x r x' r' (e & s & d & -> & He & Hs & Nd & D) NR (e' & s' & d' & -> & He' & Hs' & Nd' & D') E.
  cbn in E. inversion E; subst. rewrite <- !app_assoc in H1.
  assert (S : s = s' /\ d ++ r = d' ++ r').
  { apply sign_unique; auto.
    - destruct d as [| c d]; [congruence |]. inversion D; subst. exists c, (d ++ r). auto.
    - destruct d' as [| c d']; [congruence |]. inversion D'; subst. exists c, (d' ++ r'). auto. }
  destruct S as (-> & S). destruct (run_prefix d r d' r') as (t & -> & _); auto.
  cbn. rewrite !app_length. lia.
Qed.

Lemma css_number_parts : forall l s i fr x r, num_parts l s i fr x r -> css_number (s ++ i ++ fr ++ x).
Proof.
  intros l s i fr x r [He Hs Hi Hm Hf Hn Hx]. exists s, (i ++ fr), x. split; [now rewrite <- app_assoc |]. split; [assumption |].
  split.
  - destruct Hf as [(-> & _) | (f & -> & F & _)].
    + left. rewrite app_nil_r. split; [| assumption]. destruct Hn; congruence.
    + right. exists i, f. auto.
  - destruct Hx as [(-> & _) | (X & _)]; auto.
Qed.

Lemma parts_longest : forall l s i fr x r, num_parts l s i fr x r -> longest_number l (s ++ i ++ fr ++ x) r.
Proof.
  intros l s i fr x r NP. split; [destruct NP; subst; now rewrite <- !app_assoc |].
  split; [eapply css_number_parts; eassumption |].
  destruct NP as [He Hs Hi Hm Hf Hn Hx].
  intros p' r' E (s' & m' & x' & -> & Hs' & Hm' & Hx').
  rewrite He in E. rewrite <- !app_assoc in E.
  assert (HD : exists c r0, i ++ fr ++ x ++ r = c :: r0 /\ (digit c \/ c = 46)).
  { destruct i as [| c i].
    - destruct Hf as [(-> & _) | (f & -> & _)]; [destruct Hn; congruence |]. exists 46, (f ++ x ++ r). auto.
    - inversion Hi; subst. exists c, (i ++ fr ++ x ++ r). auto. }
  assert (HD' : exists c r0, m' ++ x' ++ r' = c :: r0 /\ (digit c \/ c = 46)) by (apply mantissa_head; assumption).
  destruct (sign_unique _ _ _ _ Hs Hs' E HD HD') as (-> & E2). clear E HD HD'.
  rewrite !app_length. apply Nat.add_le_mono_l.
  destruct Hm' as [(Nm & Dm) | (i' & f' & -> & Di & Nf & Df)].
  - (* integer mantissa *)
    destruct (run_prefix i (fr ++ x ++ r) m' (x' ++ r') Hi Hm E2 Dm) as (t & Ei & Ex).
    destruct Hx' as [-> | Hx'].
    { subst i. rewrite !app_length. cbn. lia. }
    destruct (exponent_head x' Hx') as (e & y & Hy & Hee).
    assert (t = []).
    { destruct t as [| c t]; [reflexivity |]. exfalso. subst x' i. cbn in Ex. inversion Ex; subst.
      apply Forall_app in Hi. destruct Hi as (_ & Hi). apply Forall_inv in Hi. apply digit_not_sign in Hi. tauto. }
    subst t. cbn in Ex. rewrite app_nil_r in Ei. subst m'.
    destruct Hf as [(-> & _) | (f & -> & _)].
    + cbn in Ex. cbn [length app]. destruct Hx as [(-> & NX) | (X & NR)].
      * exfalso. apply NX. cbn in Ex. exists x', r'. auto.
      * pose proof (exponent_max x r x' r' X NR Hx' (eq_sym Ex)). lia.
    + exfalso. subst x'. cbn in Ex. inversion Ex. subst. destruct Hee; discriminate.
  - (* fractional mantissa *)
    rewrite <- app_assoc in E2.
    destruct (run_prefix i (fr ++ x ++ r) i' ((46 :: f') ++ x' ++ r') Hi Hm E2 Di) as (t & Ei & Ex).
    assert (t = []).
    { destruct t as [| c t]; [reflexivity |]. exfalso. cbn in Ex. inversion Ex; subst.
      apply Forall_app in Hi. destruct Hi as (_ & Hi). apply Forall_inv in Hi. apply digit_not_sign in Hi. tauto. }
    subst t. cbn in Ex. rewrite app_nil_r in Ei. subst i'.
    destruct f' as [| d0 f']; [congruence |].
    destruct Hf as [(-> & ND) | (f & -> & (Nf' & F) & NX)].
    + exfalso. apply ND. cbn in Ex. exists d0, (f' ++ x' ++ r'). split; [now rewrite <- Ex |]. now inversion Df.
    + cbn in Ex. assert (Ex' : f ++ x ++ r = (d0 :: f') ++ x' ++ r') by (cbn; now inversion Ex).
      destruct (run_prefix f (x ++ r) (d0 :: f') (x' ++ r') F NX Ex' Df) as (t & Ef & Et).
      destruct Hx' as [-> | Hx'].
      { subst f. rewrite !app_length. cbn [length app]. rewrite !app_length. cbn. lia. }
      destruct (exponent_head x' Hx') as (e & y & Hy & Hee).
      assert (t = []).
      { destruct t as [| c t]; [reflexivity |]. exfalso. subst x' f. cbn in Et. inversion Et; subst.
        apply Forall_app in F. destruct F as (_ & F). apply Forall_inv in F. apply digit_not_sign in F. tauto. }
      subst t. cbn in Et. rewrite app_nil_r in Ef. subst f.
      destruct Hx as [(-> & NX') | (X & NR)].
      * exfalso. apply NX'. cbn in Et. exists x', r'. auto.
      * pose proof (exponent_max x r x' r' X NR Hx' (eq_sym Et)). rewrite !app_length. cbn [length]. lia.
Qed.

(* the exponent test of the scanner *)
Definition exp_test (l2 : list N) : bool :=
  ((peek_nth l2 0 =? 101) || (peek_nth l2 0 =? 69))
  && (is_ascii_digit (peek_nth l2 1) || (((peek_nth l2 1 =? 45) || (peek_nth l2 1 =? 43)) && is_ascii_digit (peek_nth l2 2))).
Lemma exp_test_spec : forall l, exp_test l = true <-> starts_exp l.
Proof.
  intro l. unfold exp_test. rewrite !andb_true_iff, !orb_true_iff, !andb_true_iff, !orb_true_iff, !is_digit_spec, !N.eqb_eq. split.
  - intros (A & B). destruct l as [| e l]; [rewrite peek_nil in A; lia |]. rewrite peek0, !peek1, ?peek2 in *.
    destruct B as [B | (B & C)].
    + destruct l as [| d l]; [rewrite peek_nil in B; unfold digit in B; lia |]. rewrite peek0 in B.
      exists [e; d], l. split; [reflexivity |]. exists e, [], [d]. repeat split; auto; [now left | discriminate].
    + destruct l as [| s l]; [rewrite peek_nil in B; lia |]. rewrite peek0 in B.
      destruct l as [| d l]; [unfold peek_nth in C; cbn in C; unfold digit, EOFc in C; lia |]. change (peek_nth (s :: d :: l) 1) with d in C.
      exists [e; s; d], l. split; [reflexivity |]. exists e, [s], [d]. repeat split; auto; [| discriminate].
      unfold opt_sign. destruct B; subst; auto.
  - intros (x & r & -> & e & s & d & -> & He & Hs & Nd & D). destruct d as [| c d]; [congruence |]. inversion D; subst.
    split; [cbn; tauto |]. destruct Hs as [-> | [-> | ->]]; cbn; auto.
Qed.

Lemma run_digit_ascii : forall p, digits p -> Forall (fun c => c < 128) p.
Proof. intros p H. eapply Forall_impl; [| exact H]. unfold digit. lia. Qed.

Lemma exp_scan : forall l2, exp_test l2 = true -> exists x r,
  (let l3 := tl l2 in
   let '(n3, l4) := if (peek_nth l3 0 =? 45) || (peek_nth l3 0 =? 43) then (1 + 1, tl l3) else (1, l3) in
   let (d3, l5) := skip_digits l4 in (n3 + d3, l5)) = (blen x, r) /\ l2 = x ++ r /\ exponent x /\ ~ starts digit r.
Proof.
  intros l2 T. unfold exp_test in T.
  destruct l2 as [| e l3]; [discriminate T |]. rewrite peek0, peek1, peek2 in T. cbn [tl].
  assert (He : e = 101 \/ e = 69) by lia.
  destruct ((peek_nth l3 0 =? 45) || (peek_nth l3 0 =? 43)) eqn:ES.
  - destruct l3 as [| s l4]; [discriminate ES |]. rewrite peek0, peek1 in *. cbn [tl].
    assert (ND : is_ascii_digit s = false) by (unfold is_ascii_digit; lia). rewrite ND in T. cbn [orb] in T. apply andb_true_iff in T. destruct T as (_ & T). apply andb_true_iff in T. destruct T as (_ & T).
    destruct (skip_digits_spec l4) as (d & r & -> & -> & D & NR).
    assert (digits1 d).
    { split; [| assumption]. intros ->. apply NR. cbn [app] in T. apply peek_starts; [unfold digit; lia |]. apply is_digit_spec. exact T. }
    exists (e :: s :: d), r. split; [cbn [blen]; rewrite (len_utf8_ascii e), (len_utf8_ascii s) by lia; f_equal; lia |].
    split; [reflexivity |]. split; [| assumption]. exists e, [s], d. repeat split; auto; [| apply H].
    unfold opt_sign. assert (s = 45 \/ s = 43) as [-> | ->] by lia; auto.
  - destruct (skip_digits_spec l3) as (d & r & -> & -> & D & NR).
    assert (digits1 d).
    { split; [| assumption]. intros ->. apply NR. cbn [app] in *. cbn [andb] in T. rewrite orb_false_r in T. apply andb_true_iff in T. apply peek_starts; [unfold digit; lia |]. apply is_digit_spec. tauto. }
    exists (e :: d), r. split; [cbn [blen]; rewrite (len_utf8_ascii e) by lia; f_equal; lia |].
    split; [reflexivity |]. split; [| assumption]. exists e, [], d. repeat split; auto; [now left | apply H].
Qed.

Definition has_dot_or_exp (fr x : list N) : bool := match fr, x with [], [] => false | _, _ => true end.

Lemma number_extent_parts : forall l, is_number_start l = true -> exists s i fr x r,
  number_extent l = (blen (s ++ i ++ fr ++ x), has_dot_or_exp fr x, r) /\ num_parts l s i fr x r.
Proof.
  intros l H.
  (* the scanner, with the mantissa abstracted *)
  assert (M : exists s i fr l2, l = s ++ i ++ fr ++ l2 /\ opt_sign s /\ digits i /\ ~ starts digit (fr ++ l2) /\
      ((fr = [] /\ ~ dot_digit l2) \/ (exists f, fr = 46 :: f /\ digits1 f /\ ~ starts digit l2)) /\ (i <> [] \/ fr <> []) /\
      number_extent l = (if exp_test l2 then
         let l3 := tl l2 in
         let '(n3, l4) := if (peek_nth l3 0 =? 45) || (peek_nth l3 0 =? 43) then (blen (s ++ i ++ fr) + 1 + 1, tl l3) else (blen (s ++ i ++ fr) + 1, l3) in
         let (d3, l5) := skip_digits l4 in (n3 + d3, true, l5)
       else (blen (s ++ i ++ fr), negb (match fr with [] => true | _ => false end), l2))).
  { unfold number_extent. destruct l as [| c l]; [discriminate H |]. rewrite peek0. cbn [tl].
    unfold is_number_start in H. rewrite peek0, peek1, peek2 in H.
    destruct (skip_digits_spec l) as (d & r1 & Esk & -> & D & NR). rewrite Esk.
    destruct (c =? 46) eqn:EC.
    - (* .digits *)
      assert (c = 46) by lia. subst c.
      assert (digits1 d).
      { split; [| assumption]. intros ->. apply NR. cbn [app] in *. apply peek_starts; [unfold digit; lia |]. apply is_digit_spec.
        change (is_ascii_digit 46) with false in H. change (is_sign 46) with false in H. cbn in H. exact H. }
      exists [], [], (46 :: d), r1. cbn [app]. split; [reflexivity |]. split; [now left |]. split; [constructor |].
      split; [rewrite starts_cons; unfold digit; lia |]. split; [right; exists d; auto |]. split; [right; discriminate |].
      cbn [negb andb]. unfold exp_test. cbn [blen]. rewrite (len_utf8_ascii 46) by lia. reflexivity.
    - assert (SD : exists s i, c :: d = s ++ i /\ opt_sign s /\ digits i /\ (i = [] -> dot_digit r1)).
      { destruct (is_ascii_digit c) eqn:ED.
        - exists [], (c :: d). repeat split; [now left | constructor; [now apply is_digit_spec | assumption] | discriminate].
        - exists [c], d. cbn [orb andb] in H. rewrite orb_false_r in H. apply andb_true_iff in H. destruct H as (Hs & H).
          repeat split; [unfold opt_sign, is_sign in *; assert (c = 43 \/ c = 45) as [-> | ->] by lia; auto | assumption |].
          intros ->. cbn [app] in *. destruct r1 as [| a r1]; [discriminate H |]. rewrite peek0, peek1 in H.
          apply orb_true_iff in H. destruct H as [H | H].
          + exfalso. apply NR. rewrite starts_cons. now apply is_digit_spec.
          + apply andb_true_iff in H. destruct H as (Ha & Hb). destruct r1 as [| b r1]; [discriminate Hb |]. rewrite peek0 in Hb.
            exists b, r1. split; [f_equal; lia | now apply is_digit_spec]. }
      destruct SD as (s & i & Ecd & Hs & Hi & Hne).
      assert (CA : len_utf8 c = 1).
      { apply len_utf8_ascii. destruct Hs as [-> | [-> | ->]]; cbn in Ecd; [| inversion Ecd; lia | inversion Ecd; lia].
        subst i. inversion Hi; subst. unfold digit in H2. lia. }
      assert (B : blen (s ++ i) = 1 + blen d) by (rewrite <- Ecd; cbn [blen]; lia).
      cbn [negb andb].
      destruct ((peek_nth r1 0 =? 46) && is_ascii_digit (peek_nth r1 1)) eqn:EF.
      + destruct r1 as [| a r1]; [discriminate EF |]. rewrite peek0, peek1 in EF. assert (a = 46) by lia. subst a. cbn [tl].
        destruct (skip_digits_spec r1) as (f & r2 & -> & -> & F & NF).
        assert (digits1 f).
        { split; [| assumption]. intros ->. apply NF. cbn [app] in *. apply andb_true_iff in EF. apply peek_starts; [unfold digit; lia |]. apply is_digit_spec. tauto. }
        exists s, i, (46 :: f), r2. split; [cbn [app]; rewrite app_assoc, <- Ecd; reflexivity |].
        split; [assumption |]. split; [assumption |]. split; [cbn [app]; rewrite starts_cons; unfold digit; lia |].
        split; [right; exists f; auto |]. split; [right; discriminate |].
        replace (blen (s ++ i ++ 46 :: f)) with (1 + blen d + 1 + blen f)
          by (rewrite app_assoc, blen_app, B; cbn [blen]; rewrite (len_utf8_ascii 46) by lia; lia).
        reflexivity.
      + assert (ND : ~ dot_digit r1).
        { intros (x & y & -> & X). rewrite peek0, peek1, peek0 in EF. apply is_digit_spec in X. rewrite X in EF. discriminate. }
        exists s, i, [], r1. split; [cbn [app]; rewrite app_assoc, <- Ecd; reflexivity |].
        split; [assumption |]. split; [assumption |]. split; [exact NR |].
        split; [left; auto |]. split; [left; intros ->; auto |].
        rewrite app_nil_r, B. reflexivity. }
  destruct M as (s & i & fr & l2 & El & Hs & Hi & Hm & Hf & Hn & ->).
  destruct (exp_test l2) eqn:T.
  - destruct (exp_scan l2 T) as (x & r & Ex & E2 & X & NR).
    exists s, i, fr, x, r. split.
    + revert Ex. cbv zeta. destruct ((peek_nth (tl l2) 0 =? 45) || (peek_nth (tl l2) 0 =? 43)).
      * destruct (skip_digits (tl (tl l2))) as (d3, l5). intro Ex. pose proof (f_equal fst Ex) as E1. apply (f_equal snd) in Ex. cbn [fst snd] in E1, Ex. subst l5.
        f_equal. f_equal.
        -- rewrite !blen_app. lia.
        -- destruct (exponent_head x X) as (e & y & -> & _). now destruct fr.
      * destruct (skip_digits (tl l2)) as (d3, l5). intro Ex. pose proof (f_equal fst Ex) as E1. apply (f_equal snd) in Ex. cbn [fst snd] in E1, Ex. subst l5.
        f_equal. f_equal.
        -- rewrite !blen_app. lia.
        -- destruct (exponent_head x X) as (e & y & -> & _). now destruct fr.
    + subst l2. constructor; auto.
  - exists s, i, fr, [], l2. split.
    + rewrite app_nil_r. f_equal. f_equal. now destruct fr.
    + constructor; auto. left. split; [reflexivity |]. intro X. apply exp_test_spec in X. congruence.
Qed.

Lemma opt_sign_ascii : forall s, opt_sign s -> Forall (fun c => c < 128) s.
Proof. intros s [-> | [-> | ->]]; repeat constructor. Qed.
Lemma css_number_ascii : forall p, css_number p -> Forall (fun c => c < 128) p.
Proof.
  intros p (s & m & x & -> & Hs & Hm & Hx). apply Forall_app. split; [now apply opt_sign_ascii |]. apply Forall_app. split.
  - destruct Hm as [(_ & D) | (i & f & -> & D & _ & F)]; [now apply run_digit_ascii |].
    apply Forall_app. split; [now apply run_digit_ascii |]. constructor; [lia | now apply run_digit_ascii].
  - destruct Hx as [-> | (e & s' & d & -> & He & Hs' & _ & D)]; [constructor |].
    constructor; [lia |]. apply Forall_app. split; [now apply opt_sign_ascii | now apply run_digit_ascii].
Qed.
Lemma css_number_nonempty : forall p, css_number p -> p <> [].
Proof.
  intros p (s & m & x & -> & Hs & Hm & Hx) E. apply app_eq_nil in E. destruct E as (_ & E). apply app_eq_nil in E. destruct E as (-> & _).
  destruct Hm as [(N0 & _) | (i & f & E & _)]; [congruence |]. destruct i; discriminate.
Qed.

(* float-ness in terms of the token text *)
Lemma float_text_parts : forall l s i fr x r, num_parts l s i fr x r ->
  (has_dot_or_exp fr x = true <-> float_text (s ++ i ++ fr ++ x)).
Proof.
  intros l s i fr x r [He Hs Hi Hm Hf Hn Hx].
  assert (NI : forall c, In c s \/ In c i -> c <> 46 /\ c <> 101 /\ c <> 69).
  { intros c [A | A]; [destruct Hs as [-> | [-> | ->]]; cbn in A; lia |].
    unfold digits in Hi. rewrite Forall_forall in Hi. apply Hi in A. apply digit_not_sign in A. tauto. }
  unfold float_text. rewrite !in_app_iff. split.
  - intro B. destruct Hf as [(-> & _) | (f & -> & _)].
    + destruct Hx as [(-> & _) | (X & _)]; [discriminate |]. destruct (exponent_head x X) as (e & y & -> & [-> | ->]); cbn; tauto.
    + cbn; tauto.
  - intro B. destruct fr, x; try reflexivity. cbn in B. exfalso.
    destruct B as [B | [B | B]]; (destruct B as [B | [B | [B | B]]]; [| | contradiction | contradiction]); 
      match type of B with In ?c _ => destruct (NI c) as (X & Y & Z); [tauto | congruence] end.
Qed.
