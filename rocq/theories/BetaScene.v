(** Concrete situations for the examples of PropBeta.v. *)
From Verif Require Import Double Base Spec Lex Alloc AllocProofs Mem MemProofs Api PureParse Dom Effect ParseTop Vocab ParseFacts PrintFacts
  TreeFacts Start Scene Hist HistRun HistForest HistSim HistStep HistAll HistJudge Beta BetaHist BetaSim BetaFacts.

(** A text in the caller's buffer, followed by [sl], and an empty value. *)
Lemma stays_scene t sl : ~ In 0 t -> lenN t < 100000 -> lenN sl < 100000 -> exists s A v p,
  inv s nodocs /\ empty s nodocs v A /\ stays s p t sl /\ room s A 1000000000.
Proof.
  intros N0 Hl Hs. destruct (scene (t ++ 0 :: sl)) as (s & A & v & u & p & E & I & Hv & _ & _ & Ht & Sf & _ & Hu & _ & Hz).
  { unfold lenN in *. rewrite app_length. cbn [length]. change two32 with 4294967296. lia. }
  exists s, A, v, p. split; auto. split; auto. split.
  - split; auto. split; auto. split; auto. rewrite Hz. f_equal.
    unfold scene_prog, bind in E. destruct (zj_NewAllocator init) as [[A1 s1]|]; [|discriminate]. destruct (zj_NewValue A1 s1) as [[v1 s2]|]; [|discriminate].
    destruct (zj_NewValue A1 s2) as [[u1 s3]|]; [|discriminate]. unfold user_buf in E. destruct (two32 <=? _); [discriminate|]. injection E as _ _ _ <- _. reflexivity.
  - unfold room. rewrite Hu. vm_compute. discriminate.
Qed.
(** Two documents with keys, with nothing above them. *)
Definition keyed_calls : list call :=
  [CNewAllocator; CNewValue 0; CNewValue 0; CSetBool 0 true; CSetKey KFast 0 (txt "a"); CParse PFast 1 (txt "[1]") []; CSetKey KFast 1 (txt "b")].
Lemma keyed_scene : exists s F v a A vv b, inv s F /\ on s F v a A /\ on s F vv b A /\ reads F a (JBool true) /\ reads F b (JArr [JNum (txt "1")]) /\
  key_at F a (Some (txt "a")) /\ key_at F b (Some (txt "b")) /\ root F a /\ root F b /\ a <> b /\ room s A 1000000.
Proof.
  assert (H : match brrun the_judge keyed_calls (rstart, []) with
              | Some (_, (R, _)) => (rh R, ru R, option_map (fun t => (tkey t, tpar t)) (rG R 0), option_map (fun t => (tkey t, tpar t)) (rG R 1), reads_as R 0, reads_as R 1)
              | None => ([], [], None, None, None, None)
              end = ([(Some 0, 0%nat); (Some 1, 0%nat)], [672], Some (Some (txt "a"), None), Some (Some (txt "b"), None), Some (JBool true), Some (JArr [JNum (txt "1")])))
    by (vm_compute; reflexivity).
  destruct (brrun the_judge keyed_calls (rstart, [])) as [[xs [R K]]|] eqn:E; [|discriminate].
  destruct (bprogram_most the_judge judge_correct _ _ _ _ E _ (le_n _)) as (E' & B & s & _ & Rp). clear E.
  injection H as Eh Eu E0 E1 R0 R1.
  destruct (rG R 0) as [t0|] eqn:G0; [|discriminate]. injection E0 as K0 P0. destruct (rG R 1) as [t1|] eqn:G1; [|discriminate]. injection E1 as K1 P1.
  pose proof Rp as (nm & F & S).
  assert (X : forall h i t j, nth_error (rh R) h = Some (Some i, 0%nat) -> rG R i = Some t -> reads_as R i = Some j -> tpar t = None ->
    exists v A, nth_error (ea E') 0 = Some A /\ on s F v (nm i) A /\ usedA s A <= 672 /\ reads F (nm i) j /\ key_at F (nm i) (tkey t) /\ root F (nm i)).
  { intros h i t j Hh Gi Rd Tp. destruct (sm_handle _ _ _ _ _ S h (Some i) 0%nat Hh) as (v & A & _ & HA & Hv & _).
    destruct (sm_arena _ _ _ _ _ S 0%nat A 672 HA) as (Al & Nv & Us); [now rewrite Eu|]. destruct (fs_node _ _ _ _ (sm_fs _ _ _ _ _ S) i t Gi) as (f & Ff & Ik & _ & Ip).
    exists v, A. split; auto. split; [split; [exact Hv|]; split; auto; right; exists (nm i); split; auto; congruence|].
    split; auto. split; [eapply read_reads; [apply S|exact Rd]|]. split; [exists f; auto|]. exists f. split; auto. now rewrite Ip, Tp. }
  destruct (X 0%nat 0 t0 _ ltac:(now rewrite Eh) G0 R0 P0) as (v & A & HA & Ov & Ua & Ra & Ka & Pa).
  destruct (X 1%nat 1 t1 _ ltac:(now rewrite Eh) G1 R1 P1) as (vv & A' & HA' & Ob & _ & Rb & Kb & Pb).
  assert (A' = A) by congruence. subst A'. rewrite K0 in Ka. rewrite K1 in Kb.
  exists s, F, v, (nm 0), A, vv, (nm 1). split; [apply S|]. split; auto. split; auto. split; auto. split; auto. split; auto. split; auto. split; auto. split; auto. split.
  - intro Eq. assert (0 = 1) by (apply (fs_inj _ _ _ _ (sm_fs _ _ _ _ _ S)); congruence). discriminate.
  - unfold room. change two30 with 1073741824. lia.
Qed.
