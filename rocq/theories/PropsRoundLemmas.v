(** A refutation used in PropsRound.v. *)
From Verif Require Import Base TokModel ParModel LexSpec SceneSpec SceneObs PrintSpec.

Definition inner_block : list (PreDirective sfloat) * Directive sfloat :=
  ([], DWorld pos0 [DAttribute pos0 []; DInclude pos0 (s2l "x")]).
Lemma any_blocks_refuted : exists x, is_world (snd x) /\ (forall ps, all_params x ps -> wf_params ps) /\
  parse_tokens fo_sym (print_scene x) <> Done (Ok (erase_scene x)).
Proof.
  exists inner_block. split; [exact I|]. split; [|vm_compute; discriminate].
  intros ps [(d & [] & _)|(d & Hd & E)]. cbn in Hd. destruct Hd as [<-|[<-|[<-|[]]]]; discriminate.
Qed.
