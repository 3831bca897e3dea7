(** Property theorems for the comments in generated code (C177). *)
From Coq Require Import Ascii String.
From Verif Require Import Base Strs.
From Verif.GoDoc Require Import Model Spec Proofs.
Open Scope list_scope.

(** The comments before the package clause are comments, with empty lines between them, whatever they contain. *)
Theorem C177_leading : forall detached leading, exists ls, made_of ls (leading_comments detached leading) /\ Forall (fun l => blank_line l \/ comment_line l) ls.
Proof.
  intros detached leading. assert (P : forall c, exists ls, made_of ls (put (comments_string c) ++ put []) /\ Forall (fun l => blank_line l \/ comment_line l) ls).
  { intros c. assert (B : made_of [[]; []] (put [] ++ put [])) by (apply (made_app [[]] [[]]); apply made_one; intros []). destruct c as [|x c]; [exists [[]; []]; split; [exact B|repeat constructor]|].
    destruct (string_made (x :: c) ltac:(discriminate)) as (ls & _ & M & C & _). exists (ls ++ [[]; []]). split.
    - unfold put at 1. rewrite <- app_assoc. apply made_app; [exact M|exact B].
    - apply Forall_app. split; [|repeat constructor]. eapply Forall_impl; [|exact C]. auto. }
  unfold leading_comments. assert (D : exists ls, made_of ls (flat_map (fun s => put (comments_string s) ++ put []) detached) /\ Forall (fun l => blank_line l \/ comment_line l) ls).
  { induction detached as [|d ds IH]; [exists []; split; [apply made_nil|constructor]|]. destruct (P d) as (a & Ma & Fa), IH as (b & Mb & Fb). exists (a ++ b). split; [cbn [flat_map]; now apply made_app|now apply Forall_app]. }
  destruct D as (a & Ma & Fa). destruct leading as [|x l]; [exists a; split; [now rewrite app_nil_r|exact Fa]|]. destruct (P (x :: l)) as (b & Mb & Fb). exists (a ++ b). split; [now apply made_app|now apply Forall_app].
Qed.
(** Those of a service are lines of comments without an empty line, so that they belong to the interface after them; *)
Theorem C177_service : forall leading, exists ls, made_of ls (service_comments leading) /\ Forall comment_line ls /\ (leading <> [] -> ls <> []).
Proof.
  intros [|x l]; [exists (@nil bytes); split; [apply made_nil|split; [constructor|congruence]]|]. destruct (string_made (x :: l) ltac:(discriminate)) as (ls & N & [F E] & C & _). destruct (trim_lines ls N C F) as (ms & M & Cm & _).
  exists (b_ "//" :: ms). split; [|split; [constructor; [now exists (@nil ascii)|exact Cm]|discriminate]].
  change (made_of ([b_ "//"] ++ ms) (put (b_ "//") ++ put (trim_space (comments_string (x :: l))))). apply made_app; [apply made_one; intros [H|[H|[]]]; discriminate|].
  unfold trim_space. rewrite E. destruct ls as [|m ls]; [congruence|]. inversion C as [|? ? [r ->] _]; subst. exact M.
Qed.
(** those of a method too, and they say what the comment of the method does. *)
Theorem C177_method : forall (deprecated : bool) leading signature, exists ls, Forall comment_line (if deprecated then b_ "// Deprecated: Do not use." :: ls else ls) /\
  (exists text, made_of (if deprecated then b_ "// Deprecated: Do not use." :: ls else ls) text /\ method_text deprecated leading signature = text ++ signature ++ [nl]) /\
  (leading = [] -> ls = []) /\ (leading <> [] -> says ls leading).
Proof.
  intros deprecated leading signature.
  assert (X : exists ls, Forall comment_line ls /\ made_of ls (comments_string leading) /\ (leading = [] -> ls = []) /\ (leading <> [] -> says ls leading)).
  { destruct leading as [|x l]; [exists []; split; [constructor|split; [apply made_nil|split; [reflexivity|congruence]]]|]. destruct (string_made (x :: l) ltac:(discriminate)) as (ls & N & M & C & S'). exists ls. split; [exact C|]. split; [exact M|]. split; [discriminate|auto]. }
  destruct X as (ls & C & M & E & T). exists ls. split; [|split; [|auto]].
  - destruct deprecated; [|exact C]. constructor; [now eexists|exact C].
  - exists ((if deprecated then put (b_ "// Deprecated: Do not use.") else []) ++ comments_string leading). split; [|unfold method_text, put; now rewrite <- !app_assoc].
    destruct deprecated; [|exact M]. apply (made_app [b_ "// Deprecated: Do not use."] ls); [|exact M]. apply made_one. intro I. cbn in I. repeat (destruct I as [I|I]; [discriminate|]). exact I.
Qed.
(** None of them is lost: each comment before the package clause is there, in order and followed by two empty lines; *)
Theorem C177_leading_says : forall detached leading, exists blocks,
  Forall2 (fun c b => (c = [] -> b = []) /\ (c <> [] -> says b c)) (detached ++ match leading with [] => [] | _ => [leading] end) blocks /\
  made_of (flat_map (fun b => b ++ [[]; []]) blocks) (leading_comments detached leading).
Proof.
  intros detached leading. assert (P : forall c, exists b, ((c = [] -> b = []) /\ (c <> [] -> says b c)) /\ made_of (b ++ [[]; []]) (put (comments_string c) ++ put [])).
  { intros c. assert (B : made_of [[]; []] (put [] ++ put [])) by (apply (made_app [[]] [[]]); apply made_one; intros []). destruct c as [|x c]; [exists (@nil bytes); split; [split; [reflexivity|congruence]|exact B]|].
    destruct (string_made (x :: c) ltac:(discriminate)) as (ls & _ & M & _ & T). exists ls. split; [split; [discriminate|auto]|]. unfold put at 1. rewrite <- app_assoc. apply made_app; [exact M|exact B]. }
  assert (Q : forall cs, exists blocks, Forall2 (fun c b => (c = [] -> b = []) /\ (c <> [] -> says b c)) cs blocks /\
    made_of (flat_map (fun b => b ++ [[]; []]) blocks) (flat_map (fun s => put (comments_string s) ++ put []) cs)).
  { induction cs as [|c cs (bs & F & M)]; [exists []; split; [constructor|apply made_nil]|]. destruct (P c) as (b & H & Mb). exists (b :: bs). split; [now constructor|]. cbn [flat_map]. now apply made_app. }
  destruct (Q (detached ++ match leading with [] => [] | _ => [leading] end)) as (bs & F & M). exists bs. split; [exact F|]. unfold leading_comments. rewrite flat_map_app in M. destruct leading; [exact M|]. cbn [flat_map] in M. now rewrite app_nil_r in M.
Qed.
(** and that of a service is there but for the white space at its end. *)
Theorem C177_service_says : forall leading, leading <> [] -> exists ls text body space, says ls leading /\ made_of ls text /\ text = body ++ space /\ Forall (fun c => is_space c = true) space /\
  service_comments leading = b_ "//" ++ [nl] ++ body ++ [nl].
Proof.
  intros leading N. destruct (string_made leading N) as (ls & Nl & M & C & T). destruct (trim_right_rest (comments_string leading)) as (w & E & F).
  exists ls, (comments_string leading), (trim_right (comments_string leading)), w. split; [exact T|]. split; [exact M|]. split; [exact E|]. split; [exact F|].
  assert (L : trim_left (comments_string leading) = comments_string leading).
  { destruct M as [_ X]. rewrite X. destruct ls as [|l ls]; [congruence|]. pose proof (Forall_inv C) as [r ->]. reflexivity. }
  unfold service_comments, trim_space, put. destruct leading; [congruence|]. now rewrite L, <- app_assoc.
Qed.
Example C177_case : service_comments (b_ " A." ++ [nl] ++ b_ " B. " ++ [nl]) = b_ "//" ++ [nl] ++ b_ "// A." ++ [nl] ++ b_ "// B." ++ [nl] /\
  method_text false (b_ " Get" ++ [nl]) (b_ "Get()") = b_ "// Get" ++ [nl] ++ b_ "Get()" ++ [nl] /\
  leading_comments [b_ " x"] [] = b_ "// x" ++ [nl; nl; nl].
Proof. repeat split; reflexivity. Qed.
(** But a comment can be an instruction to the Go command: the text follows the slashes as it is. *)
Theorem C177_directive_refuted : exists leading ls, made_of ls (leading_comments [] leading) /\ Exists directive ls.
Proof.
  exists (b_ "go:build ignore"), [b_ "//go:build ignore"; []; []]. split; [|constructor; now exists (b_ "build ignore")].
  split; [|reflexivity]. repeat constructor; intro I; cbn in I; repeat (destruct I as [I|I]; [discriminate|]); exact I.
Qed.

Print Assumptions C177_leading.
Print Assumptions C177_service.
Print Assumptions C177_method.
Print Assumptions C177_leading_says.
Print Assumptions C177_service_says.
Print Assumptions C177_directive_refuted.
