(** Property C79: the stack of trace records. *)
From stdpp Require Import prelude strings pretty.
From Coq Require Import ZArith.
From Verif Require Import Trace SpecTrace.
Local Open Scope string_scope.
Local Open Scope list_scope.

Lemma string_app_assoc (a b c : string) : (a +:+ b) +:+ c = a +:+ b +:+ c.
Proof. induction a as [|x a IH]; [done|]. change (String x ((a +:+ b) +:+ c) = String x (a +:+ b +:+ c)). by rewrite IH. Qed.
Lemma removelast_snoc {A} (l : list A) x : removelast (l ++ [x]) = l.
Proof. apply removelast_last. Qed.
Lemma what_report file line msg me callers : what true file line msg (rev (active me callers)) = report file line msg (active me callers).
Proof. unfold what, report, headline, trace_string. rewrite rev_involutive. by rewrite !string_app_assoc. Qed.
Lemma app_nil_text (s : string) : s +:+ "" = s.
Proof. induction s as [|a s IH]; [done|]. change (String a (s +:+ "") = String a s). by rewrite IH. Qed.
Lemma what_headline file line msg st : what false file line msg st = headline file line msg.
Proof. unfold what, headline. by rewrite app_nil_text. Qed.
Lemma pop_snoc o (l : list info) x : pop o (l ++ [x]) = (o, l).
Proof. unfold pop. destruct (l ++ [x]) eqn:E; [by destruct l|]. by rewrite <- E, removelast_snoc. Qed.

Definition keeps {A} (a b : option A) : Prop := is_Some a <-> is_Some b.
Lemma exec_locally {S} (c : code S) : forall me callers s, compiles (bool_decide (is_Some me)) c ->
  let '(o, s', me') := locally callers c me s in
  exec true c s (rev (active me callers)) = (o, s', rev (active me' callers)) /\ keeps me me' /\ o ≠ Undefined.
Proof.
  induction c as [|f|a IHa b IHb|k IH|file line msg b IH|file line msg|p file line msg|p file line msg|e|a IHa b IHb|k IH]; intros me callers s Hc; cbn [locally exec compiles] in *.
  - done.
  - done.
  - destruct Hc as [Ha Hb]. specialize (IHa me callers s Ha). destruct (locally callers a me s) as [[o s1] me1]. destruct IHa as (-> & Hk & Hn).
    destruct o; [|done|done]. specialize (IHb me1 callers s1). rewrite (bool_decide_ext _ _ Hk) in Hb. specialize (IHb Hb).
    destruct (locally callers b me1 s1) as [[o2 s2] me2]. destruct IHb as (-> & Hk2 & Hn2). split; [done|]. split; [unfold keeps in *; tauto|done].
  - apply IH, Hc.
  - unfold update. rewrite last_snoc, removelast_snoc. cbn [ti_msg blank].
    assert ((if bool_decide (msg = "") then "" else msg) = msg) as -> by (case_bool_decide; done).
    specialize (IH (Some (Info file line msg)) (active me callers) s). rewrite bool_decide_true in IH by eauto. specialize (IH Hc).
    destruct (locally (active me callers) b (Some (Info file line msg)) s) as [[o s1] me1]. destruct IH as (E & [Hk _] & Hn). cbn [active rev] in E. rewrite E.
    destruct me1 as [i|]; [|by destruct Hk]. cbn [active rev]. split; [|split; [done|done]].
    destruct o; [| |done]; rewrite pop_snoc; done.
  - destruct me as [i|]; [|by rewrite bool_decide_false in Hc by (by intros [? ?])]. cbn [active rev]. unfold update. rewrite last_snoc, removelast_snoc. split; [done|]. split; [|done]. unfold keeps. split; eauto.
  - rewrite what_report. split; [done|]. split; [done|]. by destruct (p s).
  - rewrite what_report. split; [done|]. split; [done|]. by destruct (p s).
  - done.
  - destruct Hc as [Ha Hb]. specialize (IHa me callers s Ha). destruct (locally callers a me s) as [[o s1] me1]. destruct IHa as (-> & Hk & Hn).
    destruct o; [done| |done]. specialize (IHb me1 callers s1). rewrite (bool_decide_ext _ _ Hk) in Hb. specialize (IHb Hb).
    destruct (locally callers b me1 s1) as [[o2 s2] me2]. destruct IHb as (-> & Hk2 & Hn2). split; [done|]. split; [unfold keeps in *; tauto|done].
  - rewrite rev_length. apply IH, Hc.
Qed.

(** A function that is called while the stack is [st] leaves it as it was, whether it
    returns or throws; the records of its callers and their traces are not touched, no
    record is popped that is not there, and what it does, the text of its exceptions
    included, is what it would do if every function had a record of its own. *)
Theorem C79_stack : forall S (c : code S) s st, compiles false c ->
  let '(o, s', _) := locally (rev st) c None s in exec true c s st = (o, s', st) /\ o ≠ Undefined.
Proof.
  intros S c s st Hc. pose proof (exec_locally c None (rev st) s) as H. rewrite bool_decide_false in H by (by intros [? ?]). specialize (H Hc).
  destruct (locally (rev st) c None s) as [[o s'] me']. destruct H as (E & [_ Hk] & Hn). destruct me' as [i|]; [destruct Hk; eauto; done|]. cbn [active] in E.
  by rewrite rev_involutive in E.
Qed.
Print Assumptions C79_stack.

(** The check at the end of the main functions of the samples holds: in a main function
    that begins with pooya_trace, whatever [body] has done, the stack has one record. *)
Theorem C79_main : forall S (body rest : code S) file line msg file2 line2 msg2 s,
  compiles true body -> compiles true rest ->
  exec true (CScope file line msg (CSeq body (CSize (fun n => CSeq (CDebugVerify (fun _ => Nat.eqb n 1) file2 line2 msg2) rest)))) s [] =
  exec true (CScope file line msg (CSeq body rest)) s [].
Proof.
  intros S body rest file line msg file2 line2 msg2 s Hb Hr. cbn [exec app]. unfold update. cbn [last app removelast ti_msg blank].
  set (i := Info _ _ _). pose proof (exec_locally body (Some i) [] s) as H. rewrite bool_decide_true in H by eauto. specialize (H Hb).
  destruct (locally [] body (Some i) s) as [[o s1] me1]. destruct H as (E & [Hk _] & Hn). cbn [active rev app] in E. rewrite E.
  destruct me1 as [j|]; [|by destruct Hk]. cbn [active rev app length Nat.eqb]. by destruct o.
Qed.
Print Assumptions C79_main.

(** Tracing changes nothing else: without debug checks both builds do the same to the state
    and throw at the same places; an exception of the library has the text of the release
    build with the traceback appended. *)
Definition same_text (a b : string) : Prop := a = b \/ exists file line msg active, a = headline file line msg /\ b = report file line msg active.
Definition same_outcome (a b : outcome) : Prop :=
  match a, b with Normal, Normal => True | Threw x, Threw y => same_text x y | _, _ => False end.
Lemma exec_builds {S} (c : code S) : indifferent c -> forall me callers s, compiles (bool_decide (is_Some me)) c ->
  let '(o, s', _) := exec false c s [] in let '(o', s'', me') := locally callers c me s in same_outcome o o' /\ s'' = s' /\ keeps me me' /\ exec false c s [] = (o, s', []).
Proof.
  induction c as [|f|a IHa b IHb|k IH|file line msg b IH|file line msg|p file line msg|p file line msg|e|a IHa b IHb|k IH]; intros Hi me callers s Hc; cbn [locally exec compiles indifferent] in *.
  - done.
  - done.
  - destruct Hc as [Ha Hb], Hi as [Hi1 Hi2]. specialize (IHa Hi1 me callers s Ha). destruct (exec false a s []) as [[o s1] st1]. destruct (locally callers a me s) as [[o1 s1'] me1].
    destruct IHa as (Ho & -> & Hk & [= ->]). destruct o, o1; try done. rewrite (bool_decide_ext _ _ Hk) in Hb. specialize (IHb Hi2 me1 callers s1 Hb).
    destruct (exec false b s1 []) as [[o s2] st2]. destruct (locally callers b me1 s1) as [[o2 s2'] me2]. destruct IHb as (? & ? & ? & ?). split; [done|]. split; [done|]. split; [unfold keeps in *; tauto|done].
  - apply IH; [apply Hi|apply Hc].
  - specialize (IH Hi (Some (Info file line msg)) (active me callers) s). rewrite bool_decide_true in IH by eauto. specialize (IH Hc).
    destruct (exec false b s []) as [[o s1] st1]. destruct (locally (active me callers) b (Some (Info file line msg)) s) as [[o1 s1'] me1]. destruct IH as (? & ? & ? & ?). done.
  - split; [done|]. split; [done|]. split; [|done]. destruct me; [|done]. unfold keeps. split; eauto.
  - split; [|done]. destruct (p s); [done|]. right. exists file, line, msg, (active me callers). split; [|done]. by rewrite what_headline.
  - done.
  - split; [|done]. by left.
  - destruct Hc as [Ha Hb], Hi as [Hi1 Hi2]. specialize (IHa Hi1 me callers s Ha). destruct (exec false a s []) as [[o s1] st1]. destruct (locally callers a me s) as [[o1 s1'] me1].
    destruct IHa as (Ho & -> & Hk & [= ->]). destruct o, o1; try done. rewrite (bool_decide_ext _ _ Hk) in Hb. specialize (IHb Hi2 me1 callers s1 Hb).
    destruct (exec false b s1 []) as [[o s2] st2]. destruct (locally callers b me1 s1) as [[o2 s2'] me2]. destruct IHb as (? & ? & ? & ?). split; [done|]. split; [done|]. split; [unfold keeps in *; tauto|done].
  - done.
Qed.
Theorem C79_builds : forall S (c : code S) s st, compiles false c -> indifferent c ->
  exists o o' s', exec false c s [] = (o, s', []) /\ exec true c s st = (o', s', st) /\ same_outcome o o'.
Proof.
  intros S c s st Hc Hi. pose proof (exec_builds c Hi None (rev st) s) as H. rewrite bool_decide_false in H by (by intros [? ?]). specialize (H Hc).
  pose proof (C79_stack S c s st Hc) as H2. destruct (exec false c s []) as [[o s1] st1]. destruct (locally (rev st) c None s) as [[o1 s1'] me1].
  destruct H as (Ho & -> & _ & E), H2 as [E2 _]. exists o, o1, s1. injection E as ->. done.
Qed.
Print Assumptions C79_builds.

(** ** Examples *)
(** A main function calls run, which reports where it is and then a signal that throws; the
    client catches the exception, and the next call has a clean stack. *)
Definition ex79_get : code nat := CScope "scalar_signal.hpp" 43 "" (CVerify (fun n => Nat.eqb n 0) "scalar_signal.hpp" 44 "x: unassigned").
Definition ex79_run : code nat := CScope "simulator_base.cpp" 150 "t=1" (CSeq (CDo S) (CSeq (CUpdate "simulator_base.cpp" 170 "") ex79_get)).
Definition ex79_main : code nat := CScope "main.cpp" 1 "" (CSeq (CUpdate "main.cpp" 5 "") ex79_run).
Example C79_ex : compiles false ex79_main /\ indifferent ex79_main.
Proof. done. Qed.
Example C79_ex_text : exists s, exec true ex79_main 0 [] = (Threw (String.concat nl
  [""; "Pooya Exception:"; "  scalar_signal.hpp:44"; "  x: unassigned"; ""; "Pooya Traceback:"; "- scalar_signal.hpp:43"; "- simulator_base.cpp:170"; "  t=1"; "- main.cpp:5"; ""]), s, []).
Proof. exists 1. vm_compute. reflexivity. Qed.
Example C79_ex_caught : exec true (CScope "main.cpp" 1 "" (CSeq (CTry ex79_run CSkip) (CSize (fun n => CDo (fun s => 10 * n + s))))) 0 [] = (Normal, 11, []).
Proof. vm_compute. reflexivity. Qed.
(** An update where there is no record (it would not compile) would throw, or spoil the
    record of the caller. *)
Example C79_needed : (exists t, exec true (CUpdate "a.cpp" 1 "" : code nat) 0 [] = (Threw t, 0, [])) /\
  exec true (CUpdate "a.cpp" 1 "" : code nat) 0 [Info "b.cpp" 2 ""] = (Normal, 0, [Info "a.cpp" 1 ""]).
Proof. split; [eexists|]; vm_compute; reflexivity. Qed.
