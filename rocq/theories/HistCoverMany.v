(** The contract of the calls in programs with several groups of allocators (HistMany.v).

    A call meets the contract it has in a program with one group (HistCover.v).  If it uses the
    scratch string of the length setters, then no group that may hold this string may have been
    released, and these groups must have room for it to grow.  A release has no contract. *)
From Verif Require Import Base Spec Mem Scene Hist HistRun HistSim HistStep HistAll HistMany HistWorld HistDocs HistCover.

Definition wcontract (e : event) (W : world) : Prop :=
  match e with
  | Release _ => True
  | Do g c => contract c (wr W g) /\
      (cneed c <> 0 -> wdead W = false /\ forall j, In j (wc W) -> j <> g -> roomy_all (wr W j) (cneed c))
  end.

Section Cover.
Variable jd : judge.
Hypothesis J : correct jd.
(** Worlds that a program can get to. *)
Definition reached (W : world) : Prop := exists es rs, wrun jd es wstart = Some (rs, W).
Lemma reached_start : reached wstart.
Proof. exists [], []. reflexivity. Qed.
Lemma reached_step W e x W' : reached W -> wstep jd e W = Some (x, W') -> reached W'.
Proof.
  intros (es & rs & E) H. exists (es ++ [e]), (rs ++ [x]). rewrite wrun_app, E. cbn [wrun]. now rewrite H.
Qed.
Theorem wcovered e W : reached W -> wcontract e W -> exists x W', wstep jd e W = Some (x, W').
Proof.
  intros (es & rs & E) C. destruct e as [g c|g]; cbn [wstep]; [|eauto]. destruct C as [C D].
  destruct (covered jd J c (wr W g) (docs_world jd es rs W J E g) C) as (x & R' & ->).
  destruct (N.eqb_spec (cneed c) 0) as [Z|Z]; [eauto|]. destruct (D Z) as [Dd Dr]. rewrite Dd. cbn [negb andb].
  replace (forallb _ (wc W)) with true; [eauto|]. symmetry. apply forallb_forall. intros j Hj.
  destruct (Nat.eqb_spec j g) as [->|Nj]; [reflexivity|]. destruct (scratch_roomy _ _ (Dr j Hj Nj)) as (R1 & -> & _). reflexivity.
Qed.
End Cover.

(** ** Programs that respect the contract *)
Definition wrespects (jd : judge) (es : list event) : Prop :=
  forall k e rs W, nth_error es k = Some e -> wrun jd (firstn k es) wstart = Some (rs, W) -> wcontract e W.
Lemma wrespects_runs jd es : correct jd -> wrespects jd es -> exists rs W, wrun jd es wstart = Some (rs, W).
Proof.
  intros J H. enough (K : forall k, (k <= length es)%nat -> exists rs W, wrun jd (firstn k es) wstart = Some (rs, W)).
  { destruct (K (length es) (le_n _)) as (rs & W & E). rewrite firstn_all in E. eauto. }
  induction k as [|k IH]; intro L; [exists [], wstart; reflexivity|].
  destruct IH as (rs & W & E); [lia|]. destruct (nth_error es k) as [e|] eqn:En; [|apply nth_error_None in En; lia].
  destruct (wcovered jd J e W (ex_intro _ _ (ex_intro _ _ E)) (H k e rs W En E)) as (x & W' & Es).
  assert (Ef : firstn (Datatypes.S k) es = firstn k es ++ [e]).
  { clear -En. revert k En. induction es as [|y es IH]; intros [|k] En; try discriminate; cbn in *; [now injection En as ->|]. f_equal. now apply IH. }
  rewrite Ef, wrun_app, E. cbn [wrun]. rewrite Es. eauto.
Qed.
Theorem wrespects_ok jd es : correct jd -> wrespects jd es -> exists rs W, wrun jd es wstart = Some (rs, W) /\
  exists f0, forall fuel, (f0 <= fuel)%nat ->
  exists Es s, erun fuel es wenv0 init = Ok ((rs, Es), s) /\ forall g, represents (wr W g) (Es g) s.
Proof. intros J H. destruct (wrespects_runs jd es J H) as (rs & W & E). exists rs, W. split; auto. eapply many; eauto. Qed.
