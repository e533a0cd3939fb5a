(** * Concrete build configurations, used by the examples and witnesses. *)
From Verif Require Import Machine.

Definition dbg64 : cfg := {| debug := true; ptr := 64 |}.
Definition rel64 : cfg := {| debug := false; ptr := 64 |}.
Definition dbg32 : cfg := {| debug := true; ptr := 32 |}.
Definition rel32 : cfg := {| debug := false; ptr := 32 |}.

Lemma wf_dbg64 : wf_cfg dbg64. Proof. right; reflexivity. Qed.
Lemma wf_rel64 : wf_cfg rel64. Proof. right; reflexivity. Qed.
Lemma wf_dbg32 : wf_cfg dbg32. Proof. left; reflexivity. Qed.
Lemma wf_rel32 : wf_cfg rel32. Proof. left; reflexivity. Qed.
#[export] Hint Resolve wf_dbg64 wf_rel64 wf_dbg32 wf_rel32 : wf.

Lemma wf8 : wf_nb 8. Proof. unfold wf_nb; tauto. Qed.
Lemma wf16 : wf_nb 16. Proof. unfold wf_nb; tauto. Qed.
Lemma wf32 : wf_nb 32. Proof. unfold wf_nb; tauto. Qed.
Lemma wf64 : wf_nb 64. Proof. unfold wf_nb; tauto. Qed.
#[export] Hint Resolve wf8 wf16 wf32 wf64 : wf.
