(** Properties C62 and C63: documents of the beta header, and both headers side by side. *)
From Verif Require Import Double Base Spec Lex Alloc Mem Dom Vocab Hist HistRun HistSim HistStep HistAll HistJudge Scene Beta BetaHist BetaSim BetaPlain BetaDocs BetaAgree.

(** ** C62 Documents of the beta header are JSON

    After any program: every node that belongs to a document can be read, and what is
    read is well formed. *)
Theorem C62_documents : forall jd, correct jd -> forall cs xs R K, brrun jd cs (rstart, []) = Some (xs, (R, K)) ->
  forall i, rG R i <> None -> exists j, reads_as R i = Some j /\ json_ok j.
Proof. intros jd J cs xs R K. exact (beta_documents jd cs xs R K J). Qed.
Print Assumptions C62_documents.
(** In any program on the code: what Stringify answers is JSON, or nothing for an empty
    value. *)
Theorem C62_stringify : forall jd, correct jd -> forall cs xs R K, brrun jd cs (rstart, []) = Some (xs, (R, K)) ->
  forall fuel, (bmost jd cs (rstart, []) <= fuel)%nat -> exists E B s, brun fuel cs estart bstart init = Ok (((xs, E), B), s) /\
    forall n h, nth_error cs n = Some (CStringify h) -> exists t, nth_error xs n = Some (Text (Some t)) /\ (t = [] \/ exists j, json_text t j).
Proof. intros jd J cs xs R K. exact (beta_texts jd cs xs R K J). Qed.
Print Assumptions C62_stringify.
(** An object whose members are set to each other, so that a key is taken over. *)
Definition taken_calls : list call :=
  [CNewAllocator; CNewValue 0; CParse PCopy 0 (txt "{""a"":1,""b"":[2]}") []; CNewValue 0; CParse PCopy 1 (txt "{""c"":{}}") []; CObjGet false 0 (txt "a"); CObjGet false 1 (txt "c"); CSet false 2 3;
   CStringify 0; CStringify 1].
Example C62_case : option_map (fun x => skipn 8 (fst x)) (brrun the_judge taken_calls (rstart, [])) =
  Some [Text (Some (txt "{""c"":{},""b"":[2]}")); Text (Some (txt "{""c"":{}}"))].
Proof. vm_compute. reflexivity. Qed.
Example C62_nodes : match brrun the_judge taken_calls (rstart, []) with Some (_, (R, _)) => reads_as R 0 | None => None end =
  Some (JObj [(txt "c", JObj []); (txt "b", JArr [JNum (txt "2")])]).
Proof. vm_compute. reflexivity. Qed.

(** ** C63 Both headers give the same answers

    [rrun] is the reference semantics of zzzjson.h (C35), [plain_run] that of the beta
    header while each node has one value object (C57).  [agreeing]: no value that has a key is set
    to one that has a key (C59), and a text parsed by its length has a 0 byte or is
    followed by one (C55).  Then on the code both give the same answers and leave the same
    documents; they differ in the bytes used. *)
Theorem C63_both : forall jd, correct jd -> forall cs xs R ys R', rrun jd cs rstart = Some (xs, R) -> plain_run jd cs rstart = Some (ys, R') -> agreeing jd cs rstart = true ->
  exists f0, forall fuel, (f0 <= fuel)%nat -> exists E s E' B s' l,
    crun fuel cs estart init = Ok ((xs, E), s) /\ represents R E s /\
    brun fuel cs estart bstart init = Ok (((xs, E'), B), s') /\ represents (lighten R l) E' s'.
Proof. intros jd J cs xs R ys R'. exact (both_headers jd cs xs R ys R' J). Qed.
Print Assumptions C63_both.
Definition both_calls : list call :=
  [CNewAllocator; CNewValue 0; CParse PCopy 0 (txt "{""a"":1,""b"":[2]}") []; CObjGet false 0 (txt "b"); CNewValue 0; CParse PLen 2 (txt "[true,""x""]") [0]; CSet false 1 2; CArrayGet 1 1;
   CGetText false false 3; CSetText false KCopy 3 (txt "y"); CGetText false false 3; CStringify 0; CStringify 2].
Example C63_case : option_map fst (rrun the_judge both_calls rstart) = option_map fst (plain_run the_judge both_calls rstart) /\
  option_map (fun x => skipn 8 (fst x)) (rrun the_judge both_calls rstart) =
    Some [Text (Some (txt "x")); Bool true; Text (Some (txt "y")); Text (Some (txt "{""a"":1,""b"":[true,""y""]}")); Text (Some (txt "[true,""x""]"))] /\
  agreeing the_judge both_calls rstart = true.
Proof. vm_compute. repeat split. Qed.
(** Without it the answers differ. *)
Example C63_keys : agreeing the_judge taken_calls rstart = false /\
  option_map (fun x => skipn 8 (fst x)) (rrun the_judge taken_calls rstart) = Some [Text (Some (txt "{""a"":{},""b"":[2]}")); Text (Some (txt "{""c"":{}}"))].
Proof. vm_compute. repeat split. Qed.
