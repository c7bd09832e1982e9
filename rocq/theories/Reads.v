(* Stylesheets are read: the logic, and declarations. *)
From Coq Require Import ZifyBool ZifyNat ZifyN.
From Coq Require Import String.
From Coq Require Import List Lia.
From Verif Require Import LexTrace AstSheet Values SpecSheet SpecLex SpecTrace SpecParser SpecSyntax SpecTraits SpecRules KindProofs CursorProofs LexBase LexFacts ParserProofs ParserProofs3 CompareProofs
  ParserProofs2 FeatureProofs TraitsTotal SelectorProofs SelectorProofs3 SelectorProofs9 SyntaxAccept Keeps SpecSelectors SpecConforms SpecAccepts SpecDecl SpecTree SpecRead SpecSelectorText SelectorGoes SelectorGoes7 PropValues4.
Open Scope N_scope.
Open Scope list_scope.
Notation length := List.length.

Lemma supported_app : forall (M : mode) src a b, supported src (a ++ b) -> supported src b.
Proof.
  intros M src a b (F & Pc). split; [apply Forall_app in F; apply F |]. intros X. destruct (Pc X) as (C1 & C2). split.
  - intros before at_ between c after E. apply (C1 (a ++ before) at_ between c after). rewrite E, <- app_assoc. reflexivity.
  - intros before at_ after E. apply (C2 (a ++ before) at_ after). rewrite E, <- app_assoc. reflexivity.
Qed.
Section Reads.
Variable src : text.
Context {mod_ : mode}.
Variable f : feature.
(* [p] has the tokens cs ahead and skips whitespace and comments *)
Definition at_ (p : parser) (cs : list cursor) : Prop := stands src f p cs /\ ready p.
Definition takes {A} (m : P A) (p : parser) (Q : A -> Prop) (rest : list cursor) : Prop := exists x q, m p = Some (Ok x, q) /\ Q x /\ at_ q rest /\ same_mode p q.
(* the same, with whitespace and comments left before [rest] *)
Definition takesg {A} (m : P A) (p : parser) (Q : A -> Prop) (rest : list cursor) : Prop := exists g, gap g /\ takes m p Q (g ++ rest).

Lemma at_ahead : forall p cs, at_ p cs -> ahead (plex p) cs.
Proof. intros p cs ((_ & _ & A & _) & _). exact A. Qed.
Lemma at_ready : forall p cs, at_ p cs -> ready p.
Proof. intros p cs (_ & R). exact R. Qed.
Lemma at_src : forall p cs, at_ p cs -> lsrc (plex p) = src.
Proof. intros p cs ((E & _) & _). exact E. Qed.
Lemma at_skip : forall p cs, at_ p cs -> pskip p = KS_TRIVIA.
Proof. intros p cs (_ & R). exact (ready_skip p R). Qed.
Lemma at_moved : forall p q used rest, at_ p (used ++ rest) -> ahead (plex q) rest -> same_mode p q -> at_ q rest.
Proof.
  intros p q used rest ((E & F & A & Su & Sk) & R) Aq S. split; [| exact (ready_moved 0 p q R (moved_of p q used rest A Aq S))]. destruct S as (S1 & S2 & S3 & S4 & S5).
  split; [congruence |]. split; [congruence |]. split; [exact Aq |]. split; [exact (supported_app mod_ src used rest Su) | rewrite S2; exact Sk].
Qed.
Lemma takes_goes : forall A (m : P A) p x used rest, at_ p (used ++ rest) -> goes m p x rest -> takes m p (eq x) rest.
Proof. intros A m p x used rest Ap (q & E & Aq & S & _). exists x, q. split; [exact E |]. split; [reflexivity |]. split; [exact (at_moved p q used rest Ap Aq S) | exact S]. Qed.
Lemma takes_bind : forall A B (m : P A) (g : A -> P B) p Q Q' mid rest, takes m p Q mid -> (forall x q, Q x -> at_ q mid -> same_mode p q -> takes (g x) q Q' rest) -> takes (bind m g) p Q' rest.
Proof.
  intros A B m g p Q Q' mid rest (x & q & E & H & Aq & S) K. destruct (K x q H Aq S) as (y & r & E' & H' & Ar & S'). exists y, r. split; [unfold bind; rewrite E; exact E' |]. split; [exact H' |]. split; [exact Ar | exact (mode_trans _ _ _ S S')].
Qed.
Lemma takes_map : forall A B (h : A -> B) (m : P A) p (Q : B -> Prop) rest, takes m p (fun x => Q (h x)) rest -> takes (pmap h m) p Q rest.
Proof. intros A B h m p Q rest (x & q & E & H & K). exists (h x), q. split; [unfold pmap, bind, ret; rewrite E; reflexivity |]. split; [exact H | exact K]. Qed.
Lemma takes_ret : forall A (x : A) p (Q : A -> Prop) rest, at_ p rest -> Q x -> takes (ret x) p Q rest.
Proof. intros A x p Q rest Ap H. exists x, p. split; [reflexivity |]. split; [exact H |]. split; [exact Ap | apply mode_refl]. Qed.
Lemma takes_or : forall A k (m e : P A) p b Q rest, peek k p = Some b -> takes (if b then m else e) p Q rest -> takes (or_peek k m e) p Q rest.
Proof. intros A k m e p b Q rest Pk T. unfold takes, or_peek. rewrite Pk. destruct b; exact T. Qed.
Lemma takes_if : forall A k (m : P A) p (Q : option A -> Prop) rest, peek k p = Some true -> takes m p (fun x => Q (Some x)) rest -> takes (parse_if_peek k m) p Q rest.
Proof. intros A k m p Q rest Pk T. unfold takes, parse_if_peek. rewrite Pk. exact (takes_map _ _ Some m p Q rest T). Qed.
Lemma takes_if_not : forall A k (m : P A) p (Q : option A -> Prop) rest, peek k p = Some false -> at_ p rest -> Q None -> takes (parse_if_peek k m) p Q rest.
Proof. intros A k m p Q rest Pk Ap H. exists None, p. split; [unfold parse_if_peek; rewrite Pk; reflexivity |]. split; [exact H |]. split; [exact Ap | apply mode_refl]. Qed.
Lemma takes_weaken : forall A (m : P A) p (Q Q' : A -> Prop) rest, (forall x, Q x -> Q' x) -> takes m p Q rest -> takes m p Q' rest.
Proof. intros A m p Q Q' rest H (x & q & E & K & T). exists x, q. split; [exact E |]. split; [apply H; exact K | exact T]. Qed.
(* bind of a takesg *)
Lemma takesg_bind : forall A B (m : P A) (h : A -> P B) p Q Q' mid rest, takesg m p Q mid -> (forall g x q, gap g -> Q x -> at_ q (g ++ mid) -> same_mode p q -> takes (h x) q Q' rest) -> takes (bind m h) p Q' rest.
Proof. intros A B m h p Q Q' mid rest (g & G & T) K. apply (takes_bind _ _ m h p Q Q' (g ++ mid) rest T). intros x q H Aq S. exact (K g x q G H Aq S). Qed.
Lemma takesg_takes : forall A (m : P A) p Q g rest, gap g -> takes m p Q (g ++ rest) -> takesg m p Q rest.
Proof. intros A m p Q g rest G T. exists g. split; [exact G | exact T]. Qed.
Lemma takes_takesg : forall A (m : P A) p Q rest, takes m p Q rest -> takesg m p Q rest.
Proof. intros A m p Q rest T. exists []. split; [apply Forall_nil | exact T]. Qed.
Lemma takesg_map : forall A B (h : A -> B) (m : P A) p (Q : B -> Prop) rest, takesg m p (fun x => Q (h x)) rest -> takesg (pmap h m) p Q rest.
Proof. intros A B h m p Q rest (g & G & T). exists g. split; [exact G | apply takes_map; exact T]. Qed.
Lemma takesg_bind2 : forall A B (m : P A) (h : A -> P B) p Q Q' mid rest, takes m p Q mid -> (forall x q, Q x -> at_ q mid -> same_mode p q -> takesg (h x) q Q' rest) -> takesg (bind m h) p Q' rest.
Proof.
  intros A B m h p Q Q' mid rest (x & q & E & H & Aq & S) K. destruct (K x q H Aq S) as (g & G & y & r & E' & H' & Ar & S'). exists g. split; [exact G |]. exists y, r. split; [unfold bind; rewrite E; exact E' |]. split; [exact H' |]. split; [exact Ar | exact (mode_trans _ _ _ S S')].
Qed.
(* ---- modes ---- *)
Lemma at_mode : forall p cs st sp, at_ p cs -> at_ (set_state (set_stop p sp) st) cs.
Proof. intros p cs st sp ((E & F & A & Su & Sk) & (Us & Si)). split; [split; [exact E |]; split; [exact F |]; split; [exact A |]; split; [exact Su | exact Sk] |]. split; [exact Us | exact Si]. Qed.
Lemma at_state : forall p cs st, at_ p cs -> at_ (set_state p st) cs.
Proof. intros p cs st ((E & F & A & Su & Sk) & (Us & Si)). split; [split; [exact E |]; split; [exact F |]; split; [exact A |]; split; [exact Su | exact Sk] |]. split; [exact Us | exact Si]. Qed.
Lemma at_stop : forall p cs sp, at_ p cs -> at_ (set_stop p sp) cs.
Proof. intros p cs sp ((E & F & A & Su & Sk) & (Us & Si)). split; [split; [exact E |]; split; [exact F |]; split; [exact A |]; split; [exact Su | exact Sk] |]. split; [exact Us | exact Si]. Qed.
Lemma takes_state : forall A s (m : P A) p Q rest, takes m (set_state p s) Q rest -> takes (in_state s m) p Q rest.
Proof.
  intros A s m p Q rest (x & q & E & H & Aq & S). exists x, (set_state q (pstate p)). split; [unfold in_state; rewrite E; reflexivity |]. split; [exact H |]. split; [apply at_state; exact Aq |]. destruct S as (S1 & S2 & S3 & S4 & S5). split; [reflexivity |]. split; [exact S2 |]. split; [exact S3 |]. split; [exact S4 | exact S5].
Qed.
Lemma takes_stop : forall A s (m : P A) p Q rest, takes m (set_stop p s) Q rest -> takes (in_stop s m) p Q rest.
Proof.
  intros A s m p Q rest (x & q & E & H & Aq & S). exists x, (set_stop q (pstop p)). split; [unfold in_stop; rewrite E; reflexivity |]. split; [exact H |]. split; [apply at_stop; exact Aq |]. destruct S as (S1 & S2 & S3 & S4 & S5). split; [exact S1 |]. split; [exact S2 |]. split; [reflexivity |]. split; [exact S4 | exact S5].
Qed.
Lemma takesg_state : forall A s (m : P A) p Q rest, takesg m (set_state p s) Q rest -> takesg (in_state s m) p Q rest.
Proof. intros A s m p Q rest (g & G & T). exists g. split; [exact G | apply takes_state; exact T]. Qed.
Lemma takesg_stop : forall A s (m : P A) p Q rest, takesg m (set_stop p s) Q rest -> takesg (in_stop s m) p Q rest.
Proof. intros A s m p Q rest (g & G & T). exists g. split; [exact G | apply takes_stop; exact T]. Qed.

(* ---- tokens ---- *)
Lemma split_one : forall (g : list cursor) c rest, g ++ c :: rest = (g ++ [c]) ++ rest.
Proof. intros g c rest. rewrite <- app_assoc. reflexivity. Qed.
Lemma take_kind : forall k p g c rest, at_ p (g ++ c :: rest) -> gap g -> kind_of c = k -> solid_kind k -> takes (parse_kind k) p (eq c) rest.
Proof. intros k p g c rest Ap G K N. rewrite split_one in Ap. apply (takes_goes _ _ _ _ (g ++ [c])); [exact Ap |]. rewrite <- split_one in Ap. exact (kind_goes k p g c rest (at_ready _ _ Ap) (at_ahead _ _ Ap) G K N). Qed.
Lemma take_if_kind : forall k p g c rest, at_ p (g ++ c :: rest) -> gap g -> kind_of c = k -> solid_kind k -> takes (if_kind k) p (eq (Some c)) rest.
Proof. intros k p g c rest Ap G K N. rewrite split_one in Ap. apply (takes_goes _ _ _ _ (g ++ [c])); [exact Ap |]. rewrite <- split_one in Ap. exact (if_kind_goes k p g c rest (at_ready _ _ Ap) (at_ahead _ _ Ap) G K N). Qed.
Lemma take_single : forall A (k : peeker) (b : cursor -> A) p g c rest, at_ p (g ++ c :: rest) -> gap g -> solid c -> k p c = Some true -> takes (parse_single k b) p (eq (b c)) rest.
Proof. intros A k b p g c rest Ap G Hc K. rewrite split_one in Ap. apply (takes_goes _ _ _ _ (g ++ [c])); [exact Ap |]. rewrite <- split_one in Ap. exact (single_goes A k b p g c rest (at_ready _ _ Ap) (at_ahead _ _ Ap) G Hc K). Qed.
Lemma take_delim : forall ch p g c rest, at_ p (g ++ c :: rest) -> gap g -> is_delim ch c -> takes (parse_delim ch) p (eq c) rest.
Proof. intros ch p g c rest Ap G D. rewrite split_one in Ap. apply (takes_goes _ _ _ _ (g ++ [c])); [exact Ap |]. rewrite <- split_one in Ap. exact (delim_goes ch p g c rest (at_ready _ _ Ap) (at_ahead _ _ Ap) G D). Qed.
Lemma peek_here : forall k p g c rest, at_ p (g ++ c :: rest) -> gap g -> solid c -> peek k p = k p c.
Proof. intros k p g c rest Ap G Hc. exact (SelectorGoes.peek_at k p g c rest (at_ready _ _ Ap) (at_ahead _ _ Ap) G Hc). Qed.
Lemma at_lasts : forall p cs c, at_ p cs -> In c cs -> kind_of c <> K_Eof.
Proof. intros p cs c Ap I. exact (ahead_kind _ _ (at_ahead _ _ Ap) c I). Qed.
Lemma peek_kind_here : forall k p g c rest, at_ p (g ++ c :: rest) -> gap g -> solid c -> peek (peek_kind k) p = Some (kind_eqb (kind_of c) k).
Proof.
  intros k p g c rest Ap G Hc. rewrite (peek_here _ p g c rest Ap G Hc). unfold peek_kind. f_equal. assert (N : kind_of c <> K_Eof) by (apply (at_lasts p _ c Ap); apply in_or_app; right; left; reflexivity).
  destruct (kind_eqb (kind_of c) k) eqn:E; [apply kind_eqb_eq in E; apply tok_kind; [exact E | congruence] | apply tok_not; [| exact N]]. intro K. rewrite K in E. rewrite (proj2 (kind_eqb_eq k k) eq_refl) in E. discriminate.
Qed.
Lemma take_if_not_kind : forall k p g c rest, at_ p (g ++ c :: rest) -> gap g -> solid c -> kind_of c <> k -> takes (if_kind k) p (eq None) (g ++ c :: rest).
Proof.
  intros k p g c rest Ap G Hc N. apply takes_if_not; [| exact Ap | reflexivity]. rewrite (peek_kind_here k p g c rest Ap G Hc). f_equal. destruct (kind_eqb (kind_of c) k) eqn:E; [apply kind_eqb_eq in E; contradiction | reflexivity].
Qed.
Lemma gap_cons : forall c g, trivia_token c -> gap g -> gap (c :: g).
Proof. intros c g Hc G. apply Forall_cons; assumption. Qed.
Lemma gap_app : forall a b, gap a -> gap b -> gap (a ++ b).
Proof. intros a b Ga Gb. apply Forall_app. split; assumption. Qed.
End Reads.
