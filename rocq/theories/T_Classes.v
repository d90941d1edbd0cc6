(** C77: the classes behind the names. *)
From Coq Require Import ZArith List Bool Reals String Ascii Lia Lra.
From Verif Require Import M_Base M_Vec M_Boundary M_Flux M_Combined M_Scalar M_Euler M_Recon M_Config.
From Verif Require Import S_Boundary S_Flux S_Config S_Classes L_Config T_Config.
Import ListNotations.
Open Scope Z_scope.

Ltac each H := cbn [In app] in H; repeat (destruct H as [H|H]; [injection H; clear H; intros; subst|]); [..|destruct H].

Ltac names := repeat match goal with
  | H : to_lower ?x = _ |- _ => rewrite H; clear H | H : _ = to_lower ?x |- _ => rewrite <- H; clear H
  | H : trim ?x = _ |- _ => rewrite H; clear H | H : _ = trim ?x |- _ => rewrite <- H; clear H end.

(** An accepted configuration of a scalar equation gets the flux of its name for that
    equation and the reconstruction of its name. *)
Theorem C77_scalar_classes : forall gamma eq e f n r rc fl rcn,
  In (eq, f, e, n) scalar_classes -> same_but_case f fl -> In (r, rc) (recon_classes scalar_lifting) -> padded rcn r ->
  create_scheme gamma eq fl rcn = Ok (mkscheme scalar_cvars (the_flux e n) rc).
Proof.
  intros gamma eq e f n r rc fl rcn Hf Hs Hr Hp.
  assert (A : asks eq fl rcn f r).
  { split; [|split; [exact Hs|split; [|exact Hp]]].
    - each Hf; vm_compute; tauto.
    - each Hr; unfold recon_names; apply in_or_app; left; cbn [In]; tauto. }
  apply asks_iff in A as (El & Et & _ & _). subst f r. unfold create_scheme. unfold find_flux.
  each Hf; cbn [last_match fold_left equations fst snd String.eqb Ascii.eqb Bool.eqb]; each Hr; names; reflexivity.
Qed.
Print Assumptions C77_scalar_classes.

(** The same for the Euler equations, with the configured gamma. *)
Theorem C77_euler_classes : forall gamma eq d f k r rc fl rcn,
  In (eq, d) euler_equations -> In (f, k) euler_classes -> same_but_case f fl ->
  In (r, rc) (recon_classes (euler_lifting d) ++ [("wenof2"%string, wenof2_recon d gamma)]) -> padded rcn r ->
  create_scheme gamma eq fl rcn = Ok (mkscheme (euler_cvars d) (euler_numflux d gamma k) rc).
Proof.
  intros gamma eq d f k r rc fl rcn He Hf Hs Hr Hp.
  assert (A : asks eq fl rcn f r).
  { split; [|split; [exact Hs|split; [|exact Hp]]].
    - each He; each Hf; vm_compute; tauto.
    - each He; each Hr; vm_compute; tauto. }
  apply asks_iff in A as (El & Et & _ & _). subst f r. unfold create_scheme. unfold find_flux.
  each He; cbn [last_match fold_left equations fst snd String.eqb Ascii.eqb Bool.eqb]; each Hf; each Hr; names; reflexivity.
Qed.
Print Assumptions C77_euler_classes.

(** Every accepted configuration is in the tables. *)
Theorem C77_all_classes : forall eq fl rcn f r, asks eq fl rcn f r ->
  (exists e n rc, In (eq, f, e, n) scalar_classes /\ In (r, rc) (recon_classes scalar_lifting)) \/
  (exists d k, In (eq, d) euler_equations /\ In (f, k) euler_classes /\
     forall gamma, exists rc, In (r, rc) (recon_classes (euler_lifting d) ++ [("wenof2"%string, wenof2_recon d gamma)])).
Proof.
  intros eq fl rcn f r (A & _ & B & _). unfold flux_names in A. unfold recon_names in B.
  destruct (existsb (String.eqb eq) ["euler1"; "euler2"; "euler3"]%string) eqn:E.
  - right. apply existsb_exists in E as (e & He & Ee). apply String.eqb_eq in Ee. subst e.
    assert (exists d, In (eq, d) euler_equations) as [d Hd].
    { cbn [In] in He. destruct He as [<-|[<-|[<-|[]]]]; eexists; cbn; [left|right; left|right; right; left]; reflexivity. }
    exists d.
    assert (exists k, In (f, k) euler_classes) as [k Hk].
    { cbn [In] in A. repeat (destruct A as [<-|A]); try destruct A; eexists; cbn [In euler_classes]; intuition reflexivity. }
    exists k. split; [exact Hd|]. split; [exact Hk|]. intros gamma.
    cbn [In app] in B. repeat (destruct B as [<-|B]); try destruct B; eexists; cbn [In app recon_classes]; intuition reflexivity.
  - left. rewrite app_nil_r in B.
    assert (exists rc, In (r, rc) (recon_classes scalar_lifting)) as [rc Hr].
    { cbn [In] in B. repeat (destruct B as [<-|B]); try destruct B; eexists; cbn [In recon_classes]; intuition reflexivity. }
    assert (exists e n, In (eq, f, e, n) scalar_classes) as (e & n & H).
    { repeat match type of A with In _ (if String.eqb eq ?s then _ else _) =>
        destruct (String.eqb_spec eq s) as [->|]; [cbn [In] in A; repeat (destruct A as [<-|A]); try destruct A;
          do 2 eexists; cbn [In scalar_classes]; intuition reflexivity|] end. destruct A. }
    now exists e, n, rc.
Qed.
Print Assumptions C77_all_classes.

(** "Roe" for Burgers, " mc" around it. *)
Example C77_classes_example : create_scheme 0 "burgers" "Roe" " mc" = Ok (mkscheme scalar_cvars (the_flux Burgers (Two BurgersRoe)) (limiter_recon scalar_lifting mc_slope)).
Proof. apply C77_scalar_classes with "roe"%string "mc"%string; [cbn; tauto| | cbn; tauto|].
  - apply Same_upper; [vm_compute; tauto|repeat constructor].
  - exists " "%string, ""%string. split; [reflexivity|]. split; [cbn; tauto|exact I].
Qed.
