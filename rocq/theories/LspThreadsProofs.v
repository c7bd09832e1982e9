From Coq Require Import List.
From Coq Require Import ZifyBool ZifyNat ZifyN.
From Coq Require Import Lia.
From Verif Require Import LspThreads SpecLspThreads.
Open Scope list_scope.

Section Proofs.
Context {H : Type} (hl : text -> option H).
Notation step := (step hl).
Notation steps := (steps hl).
Notation expected := (expected hl).
Notation state := (@state H).

Lemma update_same : forall i x (l : list (@doc_thread H)), (i < length l)%nat -> nth_error (update i x l) i = Some x.
Proof. induction i as [| i IH]; intros x [| y l] L; cbn in *; try lia; [reflexivity |]. apply IH. lia. Qed.
Lemma update_other : forall i j x (l : list (@doc_thread H)), i <> j -> nth_error (update i x l) j = nth_error l j.
Proof. induction i as [| i IH]; intros [| j] x [| y l] N; cbn; try congruence. apply IH. congruence. Qed.
Lemma update_length : forall i x (l : list (@doc_thread H)), length (update i x l) = length l.
Proof. induction i as [| i IH]; intros x [| y l]; cbn; try reflexivity. now rewrite IH. Qed.
Lemma nth_lt : forall i (l : list (@doc_thread H)) x, nth_error l i = Some x -> (i < length l)%nat.
Proof. intros i l x E. apply nth_error_Some. congruence. Qed.

(* the text a thread holds once its current work is done *)
Definition text_of (d : @doc_thread H) : text :=
  match d with Waiting cur => cur | Working _ (RopeChange t) => t | Working cur HighlightCall => cur | Replying cur _ => cur end.
(* ... and once a commit that is being sent to it has arrived *)
Definition latest (s : service_thread) (i : nat) (d : @doc_thread H) : text :=
  match s with Sending j (RopeChange t) _ => if Nat.eq_dec j i then t else text_of d | _ => text_of d end.
Definition pending (d : text -> option text) (s : service_thread) (ths : list (@doc_thread H)) : list (@reply H) :=
  match s with
  | Idle cs | Sending _ (RopeChange _) cs => expected d cs
  | Sending i HighlightCall cs | Receiving i cs =>
      match nth_error ths i with
      | Some x => match hl (text_of x) with Some h => Highlights h :: expected d cs | None => [] end
      | None => []
      end
  end.
Definition busy_ok (s : service_thread) (i : nat) (d : @doc_thread H) : Prop :=
  match d with
  | Waiting cur => forall cs, s = Receiving i cs -> hl cur = None
  | Working _ HighlightCall => exists cs, s = Receiving i cs
  | Replying cur h => (exists cs, s = Receiving i cs) /\ hl cur = Some h
  | Working _ (RopeChange _) => forall cs, s <> Receiving i cs
  end.
Definition target_ok (s : service_thread) (n : nat) : Prop :=
  match s with Idle _ => True | Sending i _ _ => (i < n)%nat | Receiving i _ => (i < n)%nat end.
Record good (d : text -> option text) (s : state) : Prop := {
  g_known : forall u, match table s u, d u with
                      | Some i, Some t => exists x, nth_error (threads s) i = Some x /\ latest (svc s) i x = t
                      | None, None => True
                      | _, _ => False
                      end;
  g_inj : forall u v i, table s u = Some i -> table s v = Some i -> u = v;
  g_busy : forall i x, nth_error (threads s) i = Some x -> busy_ok (svc s) i x;
  g_target : target_ok (svc s) (length (threads s))
}.
Lemma g_lt : forall d s u i, good d s -> table s u = Some i -> (i < length (threads s))%nat.
Proof. intros d s u i G E. pose proof (g_known _ _ G u) as K. rewrite E in K. destruct (d u); [| contradiction]. destruct K as (x & K & _). now apply nth_lt in K. Qed.

(* every step keeps the promise: replies sent, then what is still to come *)
Lemma step_good : forall d a b, good d a -> step a b -> exists d', good d' b /\ replies a ++ pending d (svc a) (threads a) = replies b ++ pending d' (svc b) (threads b).
Proof.
  intros d a b G S. pose proof (g_known _ _ G) as K. pose proof (g_inj _ _ G) as J. pose proof (g_busy _ _ G) as B. pose proof (g_target _ _ G) as Tg.
  pose proof (fun u i => g_lt d a u i G) as LT. destruct S; cbn [svc threads table replies] in *.
  - (* open *)
    exists (set_text d u t). split; [| reflexivity]. split; cbn [svc threads table].
    + intros w. unfold set_thread, set_text. destruct (list_eq_dec N.eq_dec w u).
      * exists (Waiting []). split; [rewrite nth_error_app2 by lia; rewrite Nat.sub_diag; reflexivity |]. cbn [latest]. destruct (Nat.eq_dec (length ths) (length ths)); congruence.
      * specialize (K w). destruct (tb w) as [i |] eqn:E, (d w); try exact K. destruct K as (x & K1 & K2). exists x. split; [rewrite nth_error_app1 by (now apply nth_lt in K1); exact K1 |].
        cbn [latest] in *. destruct (Nat.eq_dec (length ths) i); [apply nth_lt in K1; lia | exact K2].
    + intros w v i A C. unfold set_thread in A, C. destruct (list_eq_dec N.eq_dec w u), (list_eq_dec N.eq_dec v u); try congruence; try (now apply (J w v i)).
      * inversion A; subst. apply LT in C. lia.
      * inversion C; subst. apply LT in A. lia.
    + intros i x E. destruct (Nat.lt_ge_cases i (length ths)) as [L | L].
      * rewrite nth_error_app1 in E by exact L. specialize (B i x E). destruct x as [c | c [r |] | c h]; cbn [busy_ok] in *; try congruence.
        -- destruct B; discriminate.
        -- destruct B as ((? & ?) & _); discriminate.
      * rewrite nth_error_app2 in E by exact L. destruct (i - length ths)%nat as [| k] eqn:Q; [| destruct k; discriminate]. inversion E; subst. cbn. congruence.
    + rewrite app_length. cbn. lia.
  - (* edit *)
    pose proof (K u) as Ku. rewrite H0 in Ku. destruct (d u) as [t0 |] eqn:Du; [| contradiction]. exists (set_text d u t). split.
    + split; cbn [svc threads table]; try assumption.
      * intros w. specialize (K w). unfold set_text. destruct (list_eq_dec N.eq_dec w u) as [-> | Nw].
        -- rewrite H0 in *. rewrite Du in K. destruct K as (x & K1 & K2). exists x. split; [exact K1 |]. cbn [latest]. destruct (Nat.eq_dec i i); congruence.
        -- destruct (tb w) as [j |] eqn:E, (d w); try exact K. destruct K as (x & K1 & K2). exists x. split; [exact K1 |]. cbn [latest] in *. destruct (Nat.eq_dec i j) as [-> |]; [| exact K2]. now apply J with (u := w) in H0.
      * intros j x E. specialize (B j x E). destruct x as [c | c [r |] | c h]; cbn [busy_ok] in *; try congruence.
        -- destruct B; discriminate.
        -- destruct B as ((? & ?) & _); discriminate.
      * now apply LT in H0.
    + cbn [pending SpecLspThreads.expected]. now rewrite Du.
  - (* edit of an unknown document *)
    pose proof (K u) as Ku. rewrite H0 in Ku. destruct (d u) as [t0 |] eqn:Du; [contradiction |]. exists d. split.
    + split; cbn [svc threads table]; try assumption.
      intros j x E. specialize (B j x E). destruct x as [c | c [r |] | c h]; cbn [busy_ok] in *; try congruence.
      -- destruct B; discriminate.
      -- destruct B as ((? & ?) & _); discriminate.
    + cbn [pending SpecLspThreads.expected]. now rewrite Du.
  - (* tokens *)
    pose proof (K u) as Ku. rewrite H0 in Ku. destruct (d u) as [t0 |] eqn:Du; [| contradiction]. destruct Ku as (x0 & K1 & K2). exists d. split.
    + split; cbn [svc threads table]; try assumption.
      * intros j x E. specialize (B j x E). destruct x as [c | c [r |] | c h]; cbn [busy_ok] in *; try congruence.
        -- destruct B; discriminate.
        -- destruct B as ((? & ?) & _); discriminate.
      * now apply LT in H0.
    + cbn [pending SpecLspThreads.expected]. rewrite Du, K1. cbn [latest] in K2. rewrite K2. reflexivity.
  - (* tokens of an unknown document *)
    pose proof (K u) as Ku. rewrite H0 in Ku. destruct (d u) as [t0 |] eqn:Du; [contradiction |]. exists d. split.
    + split; cbn [svc threads table]; try assumption.
      intros j x E. specialize (B j x E). destruct x as [c | c [r |] | c h]; cbn [busy_ok] in *; try congruence.
      -- destruct B; discriminate.
      -- destruct B as ((? & ?) & _); discriminate.
    + cbn [pending SpecLspThreads.expected]. rewrite Du. now rewrite <- app_assoc.
  - (* a commit arrives *)
    exists d. split; [| reflexivity]. pose proof (nth_lt _ _ _ H0) as L. split; cbn [svc threads table]; try assumption.
    + intros w. specialize (K w). destruct (tb w) as [j |] eqn:E, (d w); try exact K. destruct K as (x & K1 & K2). cbn [latest] in *. destruct (Nat.eq_dec i j) as [-> | Nj].
      * exists (Working cur (RopeChange t)). split; [now apply update_same | exact K2].
      * exists x. split; [now rewrite update_other | exact K2].
    + intros j x E. destruct (Nat.eq_dec i j) as [-> | Nj].
      * rewrite update_same in E by exact L. inversion E; subst. cbn. congruence.
      * rewrite update_other in E by exact Nj. specialize (B j x E). destruct x as [c | c [r |] | c h]; cbn [busy_ok] in *; try congruence.
        -- destruct B; discriminate.
        -- destruct B as ((? & ?) & _); discriminate.
    + exact I.
  - (* a highlight call arrives *)
    exists d. pose proof (nth_lt _ _ _ H0) as L. split; [split; cbn [svc threads table]; try assumption |].
    + intros w. specialize (K w). destruct (tb w) as [j |] eqn:E, (d w); try exact K. destruct K as (x & K1 & K2). cbn [latest] in *. destruct (Nat.eq_dec i j) as [-> | Nj].
      * exists (Working cur HighlightCall). split; [now apply update_same |]. rewrite H0 in K1. inversion K1; subst. reflexivity.
      * exists x. split; [now rewrite update_other | exact K2].
    + intros j x E. destruct (Nat.eq_dec i j) as [-> | Nj].
      * rewrite update_same in E by exact L. inversion E; subst. cbn. eauto.
      * rewrite update_other in E by exact Nj. specialize (B j x E). destruct x as [c | c [r |] | c h]; cbn [busy_ok] in *.
        -- intros cs' Q. inversion Q; congruence.
        -- intros cs' Q. inversion Q; congruence.
        -- destruct B; discriminate.
        -- destruct B as ((? & ?) & _); discriminate.
    + cbn [target_ok]. now rewrite update_length.
    + cbn [pending]. rewrite H0, update_same by exact L. reflexivity.
  - (* a parse finishes *)
    exists d. pose proof (nth_lt _ _ _ H0) as L. split; [split; cbn [svc threads table]; try assumption |].
    + intros w. specialize (K w). destruct (tb w) as [j |] eqn:E, (d w); try exact K. destruct K as (x & K1 & K2). destruct (Nat.eq_dec i j) as [-> | Nj].
      * exists (Waiting t). split; [now apply update_same |]. rewrite H0 in K1. inversion K1; subst. destruct s as [| ? [] ? |]; reflexivity.
      * exists x. split; [now rewrite update_other | exact K2].
    + intros j x E. destruct (Nat.eq_dec i j) as [-> | Nj].
      * rewrite update_same in E by exact L. inversion E; subst. specialize (B j _ H0). cbn in *. intros cs Q. now apply B in Q.
      * rewrite update_other in E by exact Nj. now apply B.
    + rewrite update_length. exact Tg.
    + f_equal. unfold pending. destruct s as [cs | j [t0 |] cs | j cs]; try reflexivity.
      * destruct (Nat.eq_dec i j) as [-> | Nj]; [rewrite H0, update_same by exact L; reflexivity | now rewrite update_other].
      * destruct (Nat.eq_dec i j) as [-> | Nj]; [rewrite H0, update_same by exact L; reflexivity | now rewrite update_other].
  - (* highlights are computed *)
    exists d. pose proof (nth_lt _ _ _ H0) as L. split; [split; cbn [svc threads table]; try assumption |].
    + intros w. specialize (K w). destruct (tb w) as [j |] eqn:E, (d w); try exact K. destruct K as (x & K1 & K2). destruct (Nat.eq_dec i j) as [-> | Nj].
      * exists (Replying cur h). split; [now apply update_same |]. rewrite H0 in K1. inversion K1; subst. destruct s as [| ? [] ? |]; reflexivity.
      * exists x. split; [now rewrite update_other | exact K2].
    + intros j x E. destruct (Nat.eq_dec i j) as [-> | Nj].
      * rewrite update_same in E by exact L. inversion E; subst. specialize (B j _ H0). cbn in *. now split.
      * rewrite update_other in E by exact Nj. now apply B.
    + rewrite update_length. exact Tg.
    + f_equal. unfold pending. destruct s as [cs | j [t0 |] cs | j cs]; try reflexivity.
      * destruct (Nat.eq_dec i j) as [-> | Nj]; [rewrite H0, update_same by exact L; reflexivity | now rewrite update_other].
      * destruct (Nat.eq_dec i j) as [-> | Nj]; [rewrite H0, update_same by exact L; reflexivity | now rewrite update_other].
  - (* no output *)
    exists d. pose proof (nth_lt _ _ _ H0) as L. split; [split; cbn [svc threads table]; try assumption |].
    + intros w. specialize (K w). destruct (tb w) as [j |] eqn:E, (d w); try exact K. destruct K as (x & K1 & K2). destruct (Nat.eq_dec i j) as [-> | Nj].
      * exists (Waiting cur). split; [now apply update_same |]. rewrite H0 in K1. inversion K1; subst. destruct s as [| ? [] ? |]; reflexivity.
      * exists x. split; [now rewrite update_other | exact K2].
    + intros j x E. destruct (Nat.eq_dec i j) as [-> | Nj].
      * rewrite update_same in E by exact L. inversion E; subst. cbn. intros; assumption.
      * rewrite update_other in E by exact Nj. now apply B.
    + rewrite update_length. exact Tg.
    + f_equal. unfold pending. destruct s as [cs | j [t0 |] cs | j cs]; try reflexivity.
      * destruct (Nat.eq_dec i j) as [-> | Nj]; [rewrite H0, update_same by exact L; reflexivity | now rewrite update_other].
      * destruct (Nat.eq_dec i j) as [-> | Nj]; [rewrite H0, update_same by exact L; reflexivity | now rewrite update_other].
  - (* the reply arrives *)
    exists d. pose proof (nth_lt _ _ _ H0) as L. destruct (B i _ H0) as (_ & Hc). split; [split; cbn [svc threads table]; try assumption |].
    + intros w. specialize (K w). destruct (tb w) as [j |] eqn:E, (d w); try exact K. destruct K as (x & K1 & K2). cbn [latest] in *. destruct (Nat.eq_dec i j) as [-> | Nj].
      * exists (Waiting cur). split; [now apply update_same |]. rewrite H0 in K1. inversion K1; subst. reflexivity.
      * exists x. split; [now rewrite update_other | exact K2].
    + intros j x E. destruct (Nat.eq_dec i j) as [-> | Nj].
      * rewrite update_same in E by exact L. inversion E; subst. cbn. congruence.
      * rewrite update_other in E by exact Nj. specialize (B j x E). destruct x as [c | c [r |] | c h']; cbn [busy_ok] in *; try congruence.
        -- destruct B as (? & Q). inversion Q; congruence.
        -- destruct B as ((? & Q) & _). inversion Q; congruence.
    + exact I.
    + cbn [pending]. rewrite H0. cbn [text_of]. rewrite Hc. now rewrite <- app_assoc.
Qed.
Lemma start_good : forall cs, good (fun _ => None) (start cs).
Proof.
  intros cs. split; cbn [start svc threads table]; try easy. intros i x E. destruct i; discriminate.
Qed.
Lemma reachable_good : forall cs s, steps (start cs) s -> exists d, good d s /\ expected (fun _ => None) cs = replies s ++ pending d (svc s) (threads s).
Proof.
  intros cs s R. remember (start cs) as s0 eqn:E. induction R as [s | a b c R IH S].
  - subst. exists (fun _ => None). split; [apply start_good | reflexivity].
  - destruct (IH E) as (d & G & P). destruct (step_good _ _ _ G S) as (d' & G' & P'). exists d'. split; [exact G' |]. now rewrite P, P'.
Qed.
Lemma replies_prefix : forall cs s, steps (start cs) s -> exists rest, expected (fun _ => None) cs = replies s ++ rest.
Proof. intros cs s R. destruct (reachable_good _ _ R) as (d & _ & E). eauto. Qed.

(* the only way to stop early is a document without highlights *)
Lemma stuck_done : (forall t, hl t <> None) -> forall cs s, steps (start cs) s -> stuck hl s -> replies s = expected (fun _ => None) cs /\ svc s = Idle [].
Proof.
  intros T cs s R St. destruct (reachable_good _ _ R) as (d & G & E). destruct s as [sv ths tb rs].
  pose proof (g_busy _ _ G) as B. pose proof (g_target _ _ G) as Tg. pose proof (g_known _ _ G) as K. cbn [svc threads table replies] in *.
  assert (W : forall i x, nth_error ths i = Some x -> (exists cur, x = Waiting cur) \/ (exists cur h, x = Replying cur h)).
  { intros i x Q. destruct x as [cur | cur [t |] | cur h]; eauto.
    - exfalso. eapply St. eapply st_parse. exact Q.
    - exfalso. destruct (hl cur) eqn:Hc; [| now apply T in Hc]. eapply St. eapply st_highlight; eassumption. }
  destruct sv as [cs' | i c cs' | i cs'].
  - destruct cs' as [| [u t | u t | u] cs'].
    + split; [| reflexivity]. cbn [pending SpecLspThreads.expected] in E. now rewrite app_nil_r in E.
    + exfalso. eapply St. apply st_open.
    + exfalso. destruct (tb u) as [i |] eqn:Q; eapply St; [eapply st_edit | eapply st_edit_unknown]; exact Q.
    + exfalso. destruct (tb u) as [i |] eqn:Q; eapply St; [eapply st_tokens | eapply st_tokens_unknown]; exact Q.
  - exfalso. cbn [target_ok] in Tg. destruct (nth_error ths i) as [x |] eqn:Q; [| apply nth_error_None in Q; lia].
    destruct (W i x Q) as [(cur & ->) | (cur & h & ->)].
    + destruct c; eapply St; [eapply st_commit | eapply st_ask]; exact Q.
    + destruct (B i _ Q) as ((? & ?) & _); discriminate.
  - exfalso. cbn [target_ok] in Tg. destruct (nth_error ths i) as [x |] eqn:Q; [| apply nth_error_None in Q; lia].
    destruct (W i x Q) as [(cur & ->) | (cur & h & ->)].
    + specialize (B i _ Q). cbn in B. now apply (T cur), (B cs').
    + eapply St. eapply st_reply. exact Q.
Qed.
(* and every schedule comes to an end *)
Definition cost (d : @doc_thread H) : nat := match d with Waiting _ => 0 | Working _ _ => 2 | Replying _ _ => 1 end.
Definition total (l : list (@doc_thread H)) : nat := list_sum (map cost l).
Definition measure (s : state) : nat :=
  (match svc s with Idle cs => 6 * length cs | Sending _ _ cs => 6 * length cs + 5 | Receiving _ cs => 6 * length cs + 2 end + total (threads s))%nat.
Lemma total_update : forall i x y (l : list (@doc_thread H)), nth_error l i = Some y -> (total (update i x l) + cost y = total l + cost x)%nat.
Proof.
  unfold total. induction i as [| i IH]; intros x y [| z l] E; cbn in E; try discriminate.
  - inversion E; subst. cbn. lia.
  - cbn. specialize (IH x y l E). unfold list_sum in *. lia.
Qed.
Lemma step_measure : forall a b, step a b -> (measure b < measure a)%nat.
Proof.
  intros a b S. destruct S; unfold measure; cbn [svc threads length];
    try (match goal with E : nth_error ?l ?i = Some ?y |- context [update ?i ?x ?l] => pose proof (total_update i x y l E) as T; cbn [cost] in T end); try lia.
  unfold total. rewrite map_app, list_sum_app. cbn. lia.
Qed.
Lemma no_infinite_run : forall s, Acc (fun b a => step a b) s.
Proof.
  intros s. induction s as [s IH] using (well_founded_induction (Wf_nat.well_founded_ltof _ measure)). constructor. intros b S. apply IH. now apply step_measure.
Qed.
End Proofs.
