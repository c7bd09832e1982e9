(* What the calls must be answered, independently of any thread: one reply per token request, about the text the calls
   before it left; a document without highlights is never answered, and nothing after it is. *)
From Coq Require Import List.
From Verif Require Import LspThreads.
Open Scope list_scope.

Section Spec.
Context {H : Type} (hl : text -> option H).
Definition set_text (d : text -> option text) (u t : text) : text -> option text := fun v => if list_eq_dec N.eq_dec v u then Some t else d v.
Fixpoint expected (d : text -> option text) (cs : list call) : list (@reply H) :=
  match cs with
  | [] => []
  | Open u t :: r => expected (set_text d u t) r
  | Edit u t :: r => match d u with Some _ => expected (set_text d u t) r | None => expected d r end
  | Tokens u :: r =>
      match d u with
      | None => Unknown :: expected d r
      | Some t => match hl t with Some h => Highlights h :: expected d r | None => [] end
      end
  end.
Definition stuck (s : state) : Prop := forall s', ~ step hl s s'.
End Spec.
