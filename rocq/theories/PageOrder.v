(* css_ast/src/specificity.rs:8: what #[derive(PartialOrd, Ord)] makes of the three fields: they are compared in order *)
From Verif Require Import Ast.
Open Scope N_scope.
Definition spec_cmp (x y : specificity) : comparison :=
  match N.compare (spec_a x) (spec_a y) with
  | Eq => match N.compare (spec_b x) (spec_b y) with Eq => N.compare (spec_c x) (spec_c y) | o => o end
  | o => o
  end.
