(** What a request asks for, without reference to the state of a compiler: every name that a function calls
    (member accesses are not modelled). *)
From Coq Require Import Ascii String List Bool Arith ZArith.
Import ListNotations.
From Verif Require Import Base Lexer_Model Op_Model Number_Model Parser_Model Ir_Model.

Fixpoint callees (o : operand) : list text :=
  match o with
  | O_var n None (Some args) _ => n :: match args with Some l => flat_map callees l | None => [] end
  | O_select c (a, b) => callees c ++ callees a ++ callees b
  | O_bin l r _ => callees l ++ flat_map (fun x => match x with (_, y) => callees y end) r
  | O_un _ x _ => callees x
  | _ => []
  end.
Fixpoint callees_stmt (s : stmt) : list text :=
  match s with
  | S_return (Some o) | S_expr o => callees o
  | S_while c b => callees c ++ flat_map callees_stmt b
  | S_ifelse c b es el =>
      callees c ++ flat_map callees_stmt b ++ flat_map (fun x => match x with (c, b) => callees c ++ flat_map callees_stmt b end) es ++
      match el with Some b => flat_map callees_stmt b | None => [] end
  | _ => []
  end.
(** The source of a request has at most one function. [functions]: the functions of a source, if it can be parsed. *)
Definition at_most_one {U} (functions : text -> outcome (list U)) (t : text) : Prop :=
  forall us, functions t = Ret us -> length us <= 1.
