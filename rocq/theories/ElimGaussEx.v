(** An example of elimination for Gaussians. *)
From Coq Require Import String List Reals Lra.
Import ListNotations.
From Verif Require Import ElimGauss MixExamples GaussExamples IntFull.
Local Open Scope string_scope.
Local Open Scope list_scope.
Definition el_cd : gauss := {| ga_vars := ["b"; "c"]; ga_vac := false; ga_can := Some (exK, exh, Fin 0); ga_cov := None |}.
Lemma el_cd_wf : wf_gauss el_cd.
Proof.
  destruct wf_ab as (H1 & H2 & H3). split; [apply nd2; discriminate|]. exact (conj H2 H3).
Qed.
Lemma el_cd_fine : fine el_cd.
Proof.
  split.
  - split; [exact el_cd_wf|]. split; [reflexivity|]. split; [intros p q _ Hq; discriminate|]. split; [|intros C m w Hq; discriminate].
    intros K h0 g Hk. injection Hk as <- _ _. exact exK_posdef.
  - apply (plain_g el_cd el_cd exK exh (Fin 0) el_cd_wf (get_can_some el_cd exK exh (Fin 0) eq_refl)). exact I.
Qed.
Lemma gelim_ex : (exists o, oracle_ok o) /\ (forall f, In f [ex_ab; el_cd] -> solid f /\ plain f) /\ NoDup ["b"; "a"] /\
  (forall v, In v ["b"; "a"] <-> In v ["b"; "a"] /\ exists f, In f [ex_ab; el_cd] /\ In v (ga_vars f)).
Proof.
  split; [exact id_oracle_ok|]. split; [intros f [<-|[<-|[]]]; [exact (conj ex_ab_solid ex_ab_plain)|exact el_cd_fine]|].
  split; [apply nd2; discriminate|]. intros v. split; [|tauto]. intros H. split; [exact H|]. exists ex_ab. split; [now left|]. cbn in *. tauto.
Qed.
