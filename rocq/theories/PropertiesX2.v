(** Properties of the memory of the document objects: claim C102. *)
From Verif Require Import CStr ObjMemModel SpecX SpecX2 ObjMemFactsD PropertiesX.

(** A copy is like the object it was made of, through all levels, and shares nothing
    with it; nothing that was in memory changes. *)
Theorem C102_copy oracle matches t h held a k : history oracle matches t h held -> usable h held a k -> copyable k ->
  exists h' b n, run oracle matches (CCopy a) h = Ok (h', [b]) /\ alike n h h' a b /\
    (forall x c, at_ h x c -> at_ h' x c) /\ (forall x, from h' [b] x -> ~ alloc h x).
Proof. exact (history_copy oracle matches t h held a k). Qed.
Print Assumptions C102_copy.
(** A group with a package; its copy takes eight new objects. *)
Example C102_case oracle matches : exists h h' b, history oracle matches true h [2] /\ usable h [2] 2 KGroup /\ length h = 8 /\
  run oracle matches (CCopy 2) h = Ok (h', [b]) /\ length h' = 16 /\ b = 8 /\ points h' 13 [] 14.
Proof.
  pose proof (start oracle matches) as H.
  call H (CItem WPkg) (@nil addr).
  call H (CSetVal WPkg 0 f_name bash) [0].
  call H (CObj PGroup) [0].
  call H (CSetProp PGroup 2 (S_ "id") bash) [2; 0].
  call H (CAddItem PGroup 2 f_pkgs LPkg 0) [2].
  match type of H with history _ _ _ ?h _ => let r := eval vm_compute in (run oracle matches (CCopy 2) h) in match r with Ok (?h1, _) => exists h, h1, 8 end end.
  split; [exact H|]. split; [obeys|]. split; [reflexivity|]. split; [vm_compute; reflexivity|]. split; [reflexivity|]. split; [reflexivity|]. eexists. split; [reflexivity|]. cbn. here.
Qed.
