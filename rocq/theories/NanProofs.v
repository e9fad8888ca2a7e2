(** * Proofs about no-data values that are floating point numbers *)
From Coq Require Import ZArith Bool Lia SpecFloat.
From Verif Require Import LangModel LangProofs ConcModel LoopModel PolicyModel LocalSpec IntsModel FloatModel IeeeSpec FloatSpec FloatProofs FloatProps
  NanModel NanSpec.
Open Scope Z_scope.

Section Format.
Variable f : fmt.
Notation is_float := (is_float (fprec f) (femax f)).

Lemma eqb_nan x y : is_nan x = true \/ is_nan y = true -> SFeqb x y = false.
Proof. intros [N|N]; [destruct x; try discriminate; destruct y as [[]|[]| |[]]; reflexivity|destruct y; try discriminate; destruct x as [[]|[]| |[]]; reflexivity]. Qed.
Lemma eqb_matches v nd : is_float v -> is_float nd -> SFeqb v nd = true <-> matches f v nd.
Proof.
  intros V N. unfold matches. destruct (is_nan v) eqn:NV; [rewrite eqb_nan by auto; split; [discriminate|intros (A & _); discriminate]|].
  destruct (is_nan nd) eqn:NN; [rewrite eqb_nan by auto; split; [discriminate|intros (_ & A & _); discriminate]|].
  assert (C := C63_equal f v nd V N NV NN). unfold fequal in C. rewrite C. tauto.
Qed.
Lemma alike_refl x : alike f x x.
Proof. unfold alike. auto. Qed.

Lemma found_at nd rb m m' i o : is_float nd -> (forall r, o = Value r -> is_float r) -> mval m rb i <> None ->
  holds (mark_value nd rb) rb m m' i o ->
  (nd_at (detect_value nd rb) m' i = true <-> found f nd o) /\
  mval m' rb i = Some (match o with Value r => r | _ => nd end).
Proof.
  intros N R E [H _]. destruct (mval m rb i) as [old|]; [|congruence]. cbn [option_map mark_value] in H.
  assert (F : final_value (MarkByValue rb nd) old o = match o with Value r => r | _ => nd end) by (destruct o; reflexivity).
  unfold mark_value in H. rewrite F in H. split; auto. cbn [nd_at detect_value]. rewrite H. destruct o as [|r|r]; cbn [found].
  - rewrite eqb_matches by auto. unfold matches. assert (A := alike_refl nd). tauto.
  - apply eqb_matches; auto.
  - rewrite eqb_matches by auto. unfold matches. assert (A := alike_refl nd). tauto.
Qed.
End Format.
