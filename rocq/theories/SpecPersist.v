(** * Vocabulary for the statements about saving and loading. *)
From Verif Require Export ModelPersist SpecAlg.
From Coq Require Import String.
Open Scope Z_scope.

(** What is assumed about pickle: what was dumped is read back, and a truncated file is refused. *)
Definition pickle_ok (pk : pickle) : Prop :=
  forall o b, dump pk o = Some b ->
    undump pk b = Some o /\
    forall q r, b = (q ++ r)%list -> r <> [] -> undump pk q = None.

(** Equal in every attribute except the stored generator state and the output stream. *)
Definition same_attributes (a b : obj) : Prop :=
  o_cfg a = o_cfg b /\ o_bb a = o_bb b /\ o_T a = o_T b /\ o_I a = o_I b /\ o_C a = o_C b /\ o_R a = o_R b /\
  o_elapsed a = o_elapsed b.

(** Two process results that agree on everything but the local variables of the call. *)
Definition same_outcome (p q : proc) : Prop :=
  p_rng p = p_rng q /\ p_bb p = p_bb q /\
  match p_res p, p_res q with
  | Running s _, Running s' _ => s = s'
  | Done s, Done s' => s = s'
  | Failed e, Failed e' => e = e'
  | _, _ => False
  end.

(** The file can be loaded in a fresh process. *)
Definition readable (pk : pickle) (f : string) (w : world) : Prop := exists o w', load pk f w = Some (o, w').
