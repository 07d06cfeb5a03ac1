(** * C102: what ct_format leaves for later gives, when formatted, what formatting all at once gives *)
From Verif Require Import Base CtFormatModel TwoStageSpec TwoStageProofs.
Open Scope N_scope.

(** The formatter that ct_format calls on each piece with one argument. *)
Notation one text := (fun s v => format text s [v]).

(** Any mix of compile-time arguments, run-time arguments and results of ct_format, where what is formatted
    early has no braces (literal text before run-time arguments and after the last argument may): formatting
    the result's string with the result's arguments gives the text all at once. *)
Theorem C102_two_stages : forall V (text : option (list N) -> V -> option (list N)) of_str fs tail args ts,
  well_formed fs tail -> all3 (fun x a t => finally text of_str (snd (snd x)) a t /\ safe (fst x) a t) fs args ts ->
  exists r, ct_format (one text) of_str (source fs tail) args = Some r /\ format text (r_str r) (r_args r) = Some (at_once fs ts tail).
Proof.
  intros V text of_str fs tail args ts W H. destruct (two_stage text of_str fs tail args ts W H) as (r & E & F). exists r. split; [|exact F].
  rewrite <- E. apply (ct_format_pieces text of_str fs tail args W).
Qed.
Print Assumptions C102_two_stages.

(** Only compile-time arguments: nothing is left for later, and if there are no braces after the last
    argument the result's string is the text. *)
Theorem C102_compile_time : forall V (text : option (list N) -> V -> option (list N)) of_str fs tail vs ts,
  well_formed fs tail -> unescaped tail -> all3 (fun x v t => text (snd (snd x)) v = Some t) fs vs ts ->
  exists r, ct_format (one text) of_str (source fs tail) (map (@ACt V V) vs) = Some r /\ r_args r = [] /\ r_str r = at_once fs ts tail.
Proof.
  intros V text of_str fs tail vs ts W U H. destruct (compile_time_text text of_str fs tail vs ts W H) as (r & E & A & pre & P1 & P2). exists r.
  split; [rewrite <- E; apply (ct_format_pieces text of_str fs tail _ W)|]. split; [exact A|]. rewrite P1, P2, (unescaped_meant tail U). reflexivity.
Qed.
Print Assumptions C102_compile_time.
(** Doubled braces after the last argument stay doubled in that string, unlike those before it. *)
Theorem C102_tail_refuted : forall V (text : option (list N) -> V -> option (list N)) of_str fs tail vs ts,
  well_formed fs tail -> ~ unescaped tail -> all3 (fun x v t => text (snd (snd x)) v = Some t) fs vs ts ->
  exists r, ct_format (one text) of_str (source fs tail) (map (@ACt V V) vs) = Some r /\ r_args r = [] /\ r_str r <> at_once fs ts tail.
Proof.
  intros V text of_str fs tail vs ts W U H. destruct (compile_time_text text of_str fs tail vs ts W H) as (r & E & A & pre & P1 & P2). exists r.
  split; [rewrite <- E; apply (ct_format_pieces text of_str fs tail _ W)|]. split; [exact A|]. rewrite P1, P2. intros C. apply app_inv_head in C.
  destruct (meant_shorter tail) as (_ & L). specialize (L U). rewrite C in L. lia.
Qed.
Print Assumptions C102_tail_refuted.
(** A brace in what is formatted early, whether from doubled braces before the first argument or from the
    argument's own text, is taken for part of a field when the rest is formatted, which then fails. *)
Theorem C102_braces_refuted : forall V (text : option (list N) -> V -> option (list N)) of_str lit f fs tail v t args r,
  well_formed ((lit, f) :: fs) tail -> text (snd f) v = Some t -> stray_brace (meant lit ++ t) ->
  ct_format (one text) of_str (source ((lit, f) :: fs) tail) (ACt v :: args) = Some r -> format text (r_str r) (r_args r) = None.
Proof.
  intros V text of_str lit f fs tail v t args r W Ht Hs E. apply (braces_stick text of_str lit f fs tail v t args r W Ht Hs). rewrite <- E. symmetry. apply (ct_format_pieces text of_str _ tail _ W).
Qed.
Print Assumptions C102_braces_refuted.

(** ** Cases: values that are strings, written as they are *)
Definition as_is (opts : option (list N)) (v : list N) : option (list N) := match opts with None => Some v | Some _ => None end.
(** "a{}b{n}{}{{" with "XY" at compile time, "Z" at run time and the result of "<{}>" with "Q" at run time:
    the string is "aXYb{}<{}>{{", left are "Z" and "Q", and then "aXYbZ<Q>{". *)
Example C102_two_stages_example :
  let inner := mk_result [60; 123; 125; 62] [[81]] [] in
  let fs := [([Lit 97], ([], None)); ([Lit 98], ([110], None)); ([], ([], None))] in
  let args := [ACt [88; 89]; ARt [90]; ARes inner] in
  well_formed fs [OpenBrace] /\
  all3 (fun x a t => finally as_is (fun s => s) (snd (snd x)) a t /\ safe (fst x) a t) fs args [[88; 89]; [90]; [60; 81; 62]] /\
  source fs [OpenBrace] = [97; 123; 125; 98; 123; 110; 125; 123; 125; 123; 123] /\
  option_map (fun r => (r_str r, r_args r, format as_is (r_str r) (r_args r))) (ct_format (one as_is) (fun s => s) (source fs [OpenBrace]) args)
    = Some ([97; 88; 89; 98; 123; 125; 60; 123; 125; 62; 123; 123], [[90]; [81]], Some [97; 88; 89; 98; 90; 60; 81; 62; 123]).
Proof.
  cbv zeta. split; [|split; [|split; vm_compute; reflexivity]].
  - split.
    + intros x [<-|[<-|[<-|[]]]]; (split; [intros c Hc; cbn in Hc; intuition (congruence || (injection H as <-; split; discriminate))|]); (split; [intros c Hc; cbn in Hc; intuition (subst; discriminate)|]); (split; [cbn; intuition discriminate|exact I]).
    + intros c [Hc|[]]. discriminate.
  - apply all3_cons; [split; [reflexivity|]|apply all3_cons; [split; [reflexivity|exact I]|apply all3_cons; [split; [split; reflexivity|]|apply all3_nil]]].
    + split; [split; intros [H|[]]; discriminate|]. intros c Hc; cbn in Hc; intuition (subst; discriminate).
    + split; intros [].
Qed.
(** "{}{{" with "X": the string is "X{{", not "X{". *)
Example C102_tail_example :
  well_formed [([], ([], None))] [OpenBrace] /\ ~ unescaped [OpenBrace] /\ all3 (fun x v t => as_is (snd (snd x)) v = Some t) [(@nil ch, (@nil N, None))] [[88]] [[88]] /\
  option_map (fun r => r_str r) (@ct_format (list N) (list N) (one as_is) (fun s => s) (source [([], ([], None))] [OpenBrace]) [ACt [88]]) = Some [88; 123; 123] /\
  at_once [([], ([], None))] [[88]] [OpenBrace] = [88; 123].
Proof.
  split; [|split; [|split; [|split; vm_compute; reflexivity]]].
  - split; [intros x [<-|[]]; split; [intros c []|split; [intros c []|split; [intros []|exact I]]]|intros c [H|[]]; discriminate].
  - intros (H & _). apply H. left. reflexivity.
  - repeat constructor.
Qed.
(** "{{a{}{}" with "X" at compile time and "Y" at run time: "{aX{}" cannot be formatted. *)
Example C102_braces_example :
  let fs := [([OpenBrace; Lit 97], ([], None)); ([], ([], None))] in
  well_formed fs [] /\ stray_brace (meant [OpenBrace; Lit 97] ++ [88]) /\ at_once fs [[88]; [89]] [] = [123; 97; 88; 89] /\
  option_map (fun r => (r_str r, r_args r, format as_is (r_str r) (r_args r))) (ct_format (one as_is) (fun s => s) (source fs []) [ACt [88]; ARt [89]]) = Some ([123; 97; 88; 123; 125], [[89]], None).
Proof.
  cbv zeta. split; [|split; [|split; vm_compute; reflexivity]].
  - split; [|intros c []]. intros x [<-|[<-|[]]]; (split; [intros c Hc; cbn in Hc; intuition (congruence || (injection H0 as <-; split; discriminate))|]); (split; [intros c []|]); (split; [intros []|exact I]).
  - left. exists [], 97, [88]. repeat split; try discriminate; destruct H.
Qed.
(** "{}{}" with "{a" at compile time and "Y" at run time likewise. *)
Example C102_text_example : stray_brace (meant [] ++ [123; 97]) /\
  option_map (fun r => (r_str r, r_args r, format as_is (r_str r) (r_args r))) (ct_format (one as_is) (fun s => s) (source [([], ([], None)); ([], ([], None))] []) [ACt [123; 97]; ARt [89]])
    = Some ([123; 97; 123; 125], [[89]], None).
Proof. split; [|vm_compute; reflexivity]. left. exists [], 97, []. repeat split; try discriminate; destruct H. Qed.
