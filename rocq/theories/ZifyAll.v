(** Arithmetic automation set-up shared by every file (no definitions). *)
From Coq Require Export ZArith Lia ZifyBool ZifyNat ZifyN.
Ltac Zify.zify_post_hook ::= Z.div_mod_to_equations.
