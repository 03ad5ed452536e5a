(** Property C48: the wrapper classes of zzzjson.hpp. *)
From Verif Require Import Double Base Spec Alloc Mem Dom AllocProofs Scene Hist HistRun HistSim HistStep HistAll HistJudge HistMany HistWorld Leak Budget Hpp HppAll.

(** ** C48 The classes of zzzjson.hpp answer like the C interface and free everything

    A program with zzzjson::Allocator and zzzjson::Value is a list of calls [cs]; [HC c]
    is the method of the same name as the C function of [c], [HNew h] the method NewValue
    of object [h].  [hrun] runs it on the model of the classes.  [hrrun] says what it
    should answer: what the reference semantics of C35 answers, where every new wrapper
    object takes 8 bytes of the allocator of its value and SetNumStrLenFast is
    SetNumStrLen. *)
Theorem C48_program : forall jd cs rs R, correct jd -> hrrun jd cs rstart = Some (rs, R) ->
  exists f0, forall fuel, (f0 <= fuel)%nat ->
  exists H s, hrun fuel cs hstart init = Ok ((rs, H), s) /\ exists E, represents R E s /\ wrel H E s.
Proof. exact wrapper_program. Qed.
Print Assumptions C48_program.

(** So the program has the answers of the same program written with the C interface
    ([plains]: NewValue() becomes zj_NewValue with the allocator of the object). *)
Theorem C48_same : forall jd cs rs R, correct jd -> hrrun jd cs rstart = Some (rs, R) ->
  exists f0, forall fuel, (f0 <= fuel)%nat ->
  exists H s E s', hrun fuel cs hstart init = Ok ((rs, H), s) /\ crun fuel (plains jd cs rstart) estart init = Ok ((rs, E), s').
Proof. exact same_answers. Qed.
Print Assumptions C48_same.
Theorem C48_same_calls : forall jd cs R rs R', hrrun jd (map HC cs) R = Some (rs, R') -> plains jd (map HC cs) R = map as_c cs.
Proof. exact plains_map. Qed.
Print Assumptions C48_same_calls.

(** At the end of the scope the destructors, in reverse order, run without error and
    leave nothing in use but the static texts and the buffers of the caller ... *)
Theorem C48_scope : forall jd cs rs R, correct jd -> hrrun jd cs rstart = Some (rs, R) ->
  exists f0, forall fuel, (f0 <= fuel)%nat ->
  exists s, hscope fuel cs init = Ok (rs, s) /\
    forall b, sbsize s b <> None -> sbsize init b <> None \/ In b (hbuffers fuel cs hstart init).
Proof. exact wrapper_scope. Qed.
Print Assumptions C48_scope.
(** ... which is so for every program whose scope ends, whatever it calls. *)
Theorem C48_freed : forall fuel cs rs s b, hscope fuel cs init = Ok (rs, s) -> sbsize s b <> None ->
  sbsize init b <> None \/ In b (hbuffers fuel cs hstart init).
Proof. exact scope_freed. Qed.
Print Assumptions C48_freed.
Theorem C48_buffers : forall fuel cs rs H s, hrun fuel cs hstart init = Ok ((rs, H), s) ->
  length (hbuffers fuel cs hstart init) = length (filter hkeeps cs).
Proof. exact hbuffers_length. Qed.
Print Assumptions C48_buffers.

(** Two allocators; a document is parsed, walked through and extended. *)
Definition wrapped_calls : list hcall :=
  [HC CNewAllocator; HC CNewAllocator; HC (CNewValue 1);
   HC (CParse PCopy 0 (txt "{""k"":[1,null]}") []); HC (CObjGet false 0 (txt "k")); HC (CBegin 1); HC (CNext 2); HC (CNext 3);
   HNew 3; HC (CSetText true KLenFast 4 (txt "-2")); HC (CAdd false true 1 4); HC (CSize 1); HC (CObjGet true 0 (txt "z"));
   HC (CStringify 0); HNew 4; HC (CParse PFast 5 (txt "[]") [])].
Definition wrapped_answers : list answer :=
  [Arena 0; Arena 1; Value (Some 0%nat); Bool true; Value (Some 1%nat); Value (Some 2%nat); Value (Some 3%nat); Value None;
   Value (Some 4%nat); Bool true; Bool true; Num 3; Value None; Text (Some (txt "{""k"":[1,null,-2]}")); Value (Some 5%nat); Bool true].
Example C48_case : option_map fst (hrrun the_judge wrapped_calls rstart) = Some wrapped_answers.
Proof. vm_compute. reflexivity. Qed.
Example C48_run_case : (match hrun 2000 wrapped_calls hstart init with Ok ((rs, H), s) => Some (rs, length (hw H), map fst (hw H)) | Err _ => None end)
  = Some (wrapped_answers, 6%nat, [2; 2; 2; 2; 2; 2]) /\
  (match hscope 2000 wrapped_calls init with Ok (rs, s) => Some (rs, map (fun b => is_some (sbsize s b)) [1; 2; 3; 4; 5; 6; 7; 8]) | Err _ => None end)
  = Some (wrapped_answers, [false; false; false; false; false; false; true; false]) /\
  hbuffers 2000 wrapped_calls hstart init = [7].
Proof. vm_compute. repeat split. Qed.
(** The same program with the C interface. *)
Example C48_plain_case : plains the_judge wrapped_calls rstart =
  [CNewAllocator; CNewAllocator; CNewValue 1;
   CParse PCopy 0 (txt "{""k"":[1,null]}") []; CObjGet false 0 (txt "k"); CBegin 1; CNext 2; CNext 3;
   CNewValue 1; CSetText true KLen 4 (txt "-2"); CAdd false true 1 4; CSize 1; CObjGet true 0 (txt "z");
   CStringify 0; CNewValue 1; CParse PFast 5 (txt "[]") []].
Proof. vm_compute. reflexivity. Qed.
