(* A tactic that proves concrete files well-formed, for the examples of Props.v. *)
From Coq Require Import Ascii String Permutation.
From Verif Require Import Base Strs.
From Verif.Format Require Import Model Spec Proofs.
From Verif.FormatTree Require Import Model Spec Lexing Proofs.
Import ListNotations.
Open Scope list_scope.
Ltac coms1 := match goal with
  | |- comment_ok _ => first [left; eexists; split; [reflexivity|reflexivity] | right; eexists; split; [reflexivity|split; [let X := fresh in intro X; cbn in X; repeat destruct X as [X|X]; try discriminate; destruct X|reflexivity]]]
  end.
Ltac comsl := match goal with |- comments_ok ?x => let y := eval hnf in x in change (comments_ok y) end; match goal with
  | |- comments_ok [] => exact I
  | |- comments_ok (_ :: _) => split; [coms1|split; [comsl|first [exact I|intros _; reflexivity|intros (? & ? & _); discriminate]]]
  end.
Ltac coms2 := split; comsl.
Ltac tokw := try match goal with |- orune ?s ?x => let y := eval hnf in x in change (orune s y) | |- oidt ?x => let y := eval hnf in x in change (oidt y) end; match goal with
  | |- idt _ => split; [reflexivity|split; [coms2|do 2 eexists; split; [reflexivity|split; reflexivity]]]
  | |- numt _ => split; [reflexivity|split; [coms2|split; [discriminate|reflexivity]]]
  | |- strt _ => split; [reflexivity|split; [coms2|split; [do 2 eexists; split; [vm_compute; reflexivity|first [left; reflexivity|right; reflexivity]]|vm_compute; reflexivity]]]
  | |- runet _ _ => split; [reflexivity|split; [coms2|eexists; split; [reflexivity|cbn; tauto]]]
  | |- some_rune _ _ => eexists; split; [reflexivity|tokw]
  | |- orune _ None => exact I
  | |- orune _ (Some _) => unfold orune; tokw
  | |- oidt None => exact I
  | |- oidt (Some _) => unfold oidt; tokw
  | |- semi_ok _ => unfold semi_ok; tokw
  end.
Ltac fin := exact I || reflexivity || discriminate || lia.
Ltac identw := match goal with
  | |- ident_ok (Id _) => unfold ident_ok; tokw
  | |- ident_ok (Cid _) => unfold ident_ok; first [left; dotw | right; do 2 eexists; split; [reflexivity|split; [tokw|dotw]]]
  end
with dotw := first [apply dot_one; tokw | apply dot_more; [tokw|tokw|dotw]].
Ltac refw := match goal with |- ref_ok _ => unfold ref_ok; cbn [fr_open fr_url fr_slash fr_name fr_close]; split; [identw|]; first [split; [tokw|split; [tokw|reflexivity]] | repeat split] end.
Ltac namew := first [apply name_one; partw | apply name_more; [partw|partw|namew]]
with partw := unfold part_ok; match goal with |- ref_ok _ /\ _ => split; [refw|split; reflexivity] | |- _ => tokw end.
Ltac valw := match goal with
  | |- value_ok (VTok _) => unfold value_ok; first [left; tokw | right; left; tokw | right; right; tokw]
  | |- value_ok (VIdent _) => unfold value_ok; identw
  | |- value_ok (VStr _) => split; [discriminate|repeat (constructor; [tokw|]); constructor]
  | |- value_ok (VNum _ _) => split; [tokw|first [left; tokw|right; tokw]]
  | |- value_ok (VMsg _ _ _ _) => apply value_ok_msg; split; [tokw|split; [tokw|split; [tokw|fieldsw]]]
  | |- value_ok (VArr _ _ _ _ _) => apply value_ok_arr; split; [tokw|split; [tokw|split; [tokw|split; [repeat (constructor; [tokw|]); constructor|split; [cbn; lia|split; [valsw|reflexivity]]]]]]
  end
with valsw := match goal with |- Forall _ [] => constructor | |- Forall _ (_ :: _) => constructor; [valw|valsw] end
with fieldsw := match goal with |- Forall _ [] => constructor | |- Forall _ (_ :: _) => constructor; [split; [refw|split; [valw|split; [tokw|first [reflexivity|tokw]]]]|fieldsw] end.
Ltac optw := split; [eexists; split; [reflexivity|namew]|split; [tokw|split; [eexists; split; [reflexivity|valw]|cbn [o_semi]; tokw]]].
Ltac kwoptw := split; [optw|split; [eexists; split; [reflexivity|tokw]|discriminate]].
Ltac optsw := match goal with |- opts_ok ?x => let y := eval hnf in x in change (opts_ok y) end; match goal with
  | |- opts_ok [] => exact I
  | |- opts_ok (_ :: _) => split; [reflexivity|split; [first [left; discriminate|right; reflexivity]|split; [first [left; split; [reflexivity|tokw]|right; optw]|optsw]]]
  end.
Ltac coptsw := match goal with
  | |- copts_ok None => exact I
  | |- copts_ok (Some _) => split; [tokw|split; [tokw|split; [tokw|split; [optsw|]]]]; split; [intros E o X; first [discriminate E|cbn in X; repeat destruct X as [X|X]; (subst; reflexivity) || destruct X]|intros E o ts X Y; first [discriminate E|cbn in X; injection X as <-; first [discriminate Y|discriminate]]]
  end.
Ltac relemw := match goal with
  | |- relem_ok (RComma _) => unfold relem_ok; tokw
  | |- relem_ok (RVal _) => unfold relem_ok; valw
  | |- relem_ok _ => unfold relem_ok; split; [valw|split; [first [exact I|tokw]|first [exact I|tokw|split; [valw|reflexivity]]]]
  end.
Ltac relemsw := match goal with |- Forall _ [] => constructor | |- Forall _ (_ :: _) => constructor; [relemw|relemsw] end.
Ltac rpcw := unfold rpctype_ok; cbn [rt_open rt_close rt_type rt_stream]; split; [tokw|split; [tokw|split; [identw|first [exact I|tokw]]]].
Ltac declw := match goal with
  | |- decl_ok (DField _ _ _ _ _ _ _) => split; [tokw|split; [identw|split; [first [discriminate|intros _; reflexivity]|split; [eexists; split; [reflexivity|tokw]|split; [tokw|split; [eexists; split; [reflexivity|valw]|split; [coptsw|tokw]]]]]]]
  | |- decl_ok (DMap _ _ _ _ _ _ _ _ _ _ _ _) => do 11 (split; [first [tokw|identw|valw|coptsw]|]); tokw
  | |- decl_ok (DEnumValue _ _ _ _ _) => split; [tokw|split; [tokw|split; [valw|split; [coptsw|tokw]]]]
  | |- decl_ok (DOption _) => unfold decl_ok; kwoptw
  | |- decl_ok (DReserved _ _ _) => split; [tokw|split; [relemsw|tokw]]
  | |- decl_ok (DExtensions _ _ _ _) => split; [tokw|split; [relemsw|split; [coptsw|tokw]]]
  | |- decl_ok (DExtend _ _ _ _ _ _) => split; [tokw|split; [first [exact I|identw]|split; [tokw|split; [tokw|split; [tokw|declsw]]]]]
  | |- decl_ok (DRpc _ _ _ _ _ _ _ _) => split; [tokw|split; [tokw|split; [rpcw|split; [tokw|split; [rpcw|split; [tokw|split; [declsw|first [reflexivity|split; tokw]]]]]]]]
  | |- decl_ok (DGroup _ _ _ _ _ _ _ _ _ _) => do 9 (split; [first [tokw|valw|coptsw]|]); declsw
  | |- decl_ok (DEmpty _) => unfold decl_ok; tokw
  | |- decl_ok _ => split; [tokw|split; [tokw|split; [tokw|split; [tokw|split; [tokw|declsw]]]]]
  end
with declsw := first [exact I | split; [declw|declsw]].
Ltac fdeclw := match goal with
  | |- fdecl_ok (FPackage _ _ _) => split; [tokw|split; [eexists; split; [reflexivity|identw]|tokw]]
  | |- fdecl_ok (FImport _) => split; [tokw|split; [cbn [i_mod]; tokw|split; [cbn [i_name]; valw|tokw]]]
  | |- fdecl_ok (FOption _) => unfold fdecl_ok; kwoptw
  | |- fdecl_ok (FDecl _) => split; [declw|exact I]
  end.
Ltac fdeclsw := match goal with |- Forall _ [] => constructor | |- Forall _ (_ :: _) => constructor; [fdeclw|fdeclsw] end.
Ltac filew := split; [cbn [f_syntax]; first [exact I|split; [tokw|split; [tokw|split; [valw|tokw]]]]|split; [cbn [f_decls]; fdeclsw|split; [cbn; lia|cbn [f_eof]; comsl]]].
