(** C91: the texts a run uses and reports. *)
From Coq Require Import List Bool Ascii String Arith Lia Permutation.
From Verif Require Import M_Base M_TextCache S_TextCache.
Import ListNotations.
Open Scope list_scope.

Lemma same_refl a : same_name a a = true.
Proof. unfold same_name. destruct (list_eq_dec ascii_dec a a); congruence. Qed.
Lemma same_iff a b : same_name a b = true <-> a = b.
Proof. unfold same_name. destruct (list_eq_dec ascii_dec a b); split; congruence. Qed.

Section Runs.
Context {file : Type}.
Variable resolve : name -> file.
Notation requests := (list (request (file := file))).
Notation abs r := (absolute (at_cwd r) (wanted r)).

Lemma loads_length (rs : requests) : forall c, List.length (fst (loads resolve rs c)) = List.length rs.
Proof.
  induction rs as [|r rs IH]; intros c; [reflexivity|]. cbn [loads].
  destruct (load_text _ _ _ _ _) as [x c1]. specialize (IH c1). destruct (loads resolve rs c1). cbn in *. now rewrite IH.
Qed.

(** What a request gives from a cache that already holds something. *)
Lemma loads_at (rs : requests) : forall c i r, nth_error rs i = Some r ->
  let xs := fst (loads resolve rs c) in
  match cached c (abs r) with
  | Some t => nth_error xs i = Some (Ok t)
  | None => (exists t, nth_error xs i = Some (Ok t) /\ first_text resolve rs xs i (abs r) t) \/
            (nth_error xs i = Some Throw /\ at_files r (resolve (abs r)) = None /\
             forall k q, k <= i -> nth_error rs k = Some q -> abs q = abs r -> nth_error xs k = Some Throw)
  end.
Proof.
  induction rs as [|r0 rs IH]; intros c i r Hi; [now destruct i|].
  cbn [loads]. unfold load_text. set (a0 := abs r0).
  destruct i as [|i].
  - injection Hi as ->. fold a0. destruct (cached c a0) as [t|] eqn:E.
    + destruct (loads resolve rs c). reflexivity.
    + destruct (at_files r (resolve a0)) as [t|] eqn:F.
      * destruct (loads resolve rs ((a0, t) :: c)) as [xs c2]. cbn. left. exists t. split; [reflexivity|].
        exists 0, r. repeat split; auto. intros k q Hk. lia.
      * destruct (loads resolve rs c) as [xs c2]. cbn. right. split; [reflexivity|]. split; [reflexivity|].
        intros k q Hk. assert (k = 0) as -> by lia. reflexivity.
  - cbn [nth_error] in Hi.
    destruct (cached c a0) as [t0|] eqn:E.
    + specialize (IH c i r Hi). destruct (loads resolve rs c) as [xs c2]. cbn [fst nth_error] in *.
      destruct (cached c (abs r)) as [t|] eqn:G; [exact IH|].
      assert (Ne : a0 <> abs r) by congruence.
      destruct IH as [(t & A & j & q & B1 & B2 & B3 & B4 & B5 & B6)|(A & B & C)].
      * left. exists t. split; [exact A|]. exists (Datatypes.S j), q. repeat split; auto; [lia|].
        intros [|k] q' Hk Hq Ha; cbn in Hq |- *; [injection Hq as <-; contradiction|]. apply (B6 k q'); auto; lia.
      * right. repeat split; auto. intros [|k] q' Hk Hq Ha; cbn in Hq |- *; [injection Hq as <-; contradiction|]. apply (C k q'); auto; lia.
    + destruct (at_files r0 (resolve a0)) as [t0|] eqn:F.
      * specialize (IH ((a0, t0) :: c) i r Hi). destruct (loads resolve rs ((a0, t0) :: c)) as [xs c2]. cbn [fst nth_error cached] in *.
        destruct (same_name a0 (abs r)) eqn:Sa.
        -- apply same_iff in Sa. rewrite <- Sa, E. left. exists t0. split; [exact IH|].
           exists 0, r0. repeat split; auto; [lia|]. intros k q Hk. lia.
        -- assert (Ne : a0 <> abs r) by (intros Q; apply same_iff in Q; congruence).
           destruct (cached c (abs r)) as [t|] eqn:G; [exact IH|].
           destruct IH as [(t & A & j & q & B1 & B2 & B3 & B4 & B5 & B6)|(A & B & C)].
           ++ left. exists t. split; [exact A|]. exists (Datatypes.S j), q. repeat split; auto; [lia|].
              intros [|k] q' Hk Hq Ha; cbn in Hq |- *; [injection Hq as <-; contradiction|]. apply (B6 k q'); auto; lia.
           ++ right. repeat split; auto. intros [|k] q' Hk Hq Ha; cbn in Hq |- *; [injection Hq as <-; contradiction|]. apply (C k q'); auto; lia.
      * specialize (IH c i r Hi). destruct (loads resolve rs c) as [xs c2]. cbn [fst nth_error] in *.
        destruct (cached c (abs r)) as [t|] eqn:G; [exact IH|].
        destruct IH as [(t & A & j & q & B1 & B2 & B3 & B4 & B5 & B6)|(A & B & C)].
        -- left. exists t. split; [exact A|]. exists (Datatypes.S j), q. repeat split; auto; [lia|].
           intros [|k] q' Hk Hq Ha; cbn in Hq |- *; [reflexivity|]. apply (B6 k q'); auto; lia.
        -- right. repeat split; auto. intros [|k] q' Hk Hq Ha; cbn in Hq |- *; [reflexivity|]. apply (C k q'); auto; lia.
Qed.

(** What is in the cache at the end. *)
Lemma loads_cached (rs : requests) : forall c a t,
  cached (snd (loads resolve rs c)) a = Some t <->
  cached c a = Some t \/ cached c a = None /\
    exists i r, nth_error rs i = Some r /\ abs r = a /\ nth_error (fst (loads resolve rs c)) i = Some (Ok t).
Proof.
  induction rs as [|r0 rs IH]; intros c a t.
  - cbn. split; [auto|]. intros [H|(_ & i & r & H & _)]; [exact H|]. now destruct i.
  - cbn [loads]. unfold load_text. set (a0 := abs r0).
    destruct (cached c a0) as [t0|] eqn:E; [|destruct (at_files r0 (resolve a0)) as [t0|] eqn:F].
    + specialize (IH c a t). destruct (loads resolve rs c) as [xs c2]. cbn [fst snd] in *. rewrite IH.
      split; (intros [H|(H & i & r & Hi & Ha & Hx)]; [now left|right; split; [exact H|]]).
      * exists (Datatypes.S i), r. auto.
      * destruct i as [|i]; [cbn in Hi; injection Hi as <-; fold a0 in Ha; congruence|]. exists i, r. auto.
    + specialize (IH ((a0, t0) :: c) a t). pose proof (loads_at rs ((a0, t0) :: c)) as L. destruct (loads resolve rs ((a0, t0) :: c)) as [xs c2]. cbn [fst snd cached] in *. rewrite IH.
      destruct (same_name a0 a) eqn:Sa.
      * apply same_iff in Sa. subst a. split.
        -- intros [H|(H & _)]; [|discriminate H]. injection H as <-. right. split; [exact E|]. exists 0, r0. auto.
        -- intros [H|(H & i & r & Hi & Ha & Hx)]; [congruence|]. left.
           destruct i as [|i]; [cbn in Hx; congruence|]. cbn [nth_error] in Hi, Hx.
           specialize (L i r Hi). rewrite Ha in L. cbn [cached fst] in L. rewrite same_refl in L. congruence.
      * assert (Ne : a0 <> a) by (intros Q; apply same_iff in Q; congruence).
        split; (intros [H|(H & i & r & Hi & Ha & Hx)]; [now left|right; split; [exact H|]]).
        -- exists (Datatypes.S i), r. auto.
        -- destruct i as [|i]; [cbn in Hi; injection Hi as <-; fold a0 in Ha; congruence|]. exists i, r. auto.
    + specialize (IH c a t). destruct (loads resolve rs c) as [xs c2]. cbn [fst snd] in *. rewrite IH.
      split; (intros [H|(H & i & r & Hi & Ha & Hx)]; [now left|right; split; [exact H|]]).
      * exists (Datatypes.S i), r. auto.
      * destruct i as [|i]; [cbn in Hx; discriminate Hx|]. exists i, r. auto.
Qed.

Lemma loads_nodup (rs : requests) : forall c, NoDup (map fst c) -> NoDup (map fst (snd (loads resolve rs c))).
Proof.
  induction rs as [|r0 rs IH]; intros c H; [exact H|]. cbn [loads]. unfold load_text.
  destruct (cached c (abs r0)) as [t0|] eqn:E; [|destruct (at_files r0 (resolve (abs r0))) as [t0|] eqn:F].
  - specialize (IH c H). destruct (loads resolve rs c). exact IH.
  - specialize (IH ((abs r0, t0) :: c)). destruct (loads resolve rs ((abs r0, t0) :: c)). apply IH. cbn. constructor; [|exact H].
    clear - E. induction c as [|[q s] c IHc]; [auto|]. cbn in *. destruct (same_name q (abs r0)) eqn:S; [discriminate|].
    intros [->|Hin]; [now rewrite same_refl in S|]. now apply IHc.
  - specialize (IH c H). destruct (loads resolve rs c). exact IH.
Qed.
End Runs.

Lemma cached_in c p : In p (map fst c) <-> exists t, cached c p = Some t.
Proof.
  induction c as [|[q s] c IH]; cbn.
  - split; [tauto|]. intros (t & H); discriminate.
  - destruct (same_name q p) eqn:S.
    + apply same_iff in S. split; [now exists s|]. intros _. now left.
    + rewrite <- IH. split; [|now right]. intros [->|H]; [now rewrite same_refl in S|exact H].
Qed.

(** ** The texts *)

(** Whatever happens to the files during a run, every request for a file gives the text the
    file had at the first request that succeeded; requests fail only as long as there is no
    file. *)
Theorem C91_first_text : forall file (resolve : name -> file) rs i r, nth_error rs i = Some r ->
  let xs := fst (loads resolve rs []) in
  let a := absolute (at_cwd r) (wanted r) in
  (exists t, nth_error xs i = Some (Ok t) /\ first_text resolve rs xs i a t) \/
  (nth_error xs i = Some Throw /\ at_files r (resolve a) = None /\
   forall k q, k <= i -> nth_error rs k = Some q -> absolute (at_cwd q) (wanted q) = a -> nth_error xs k = Some Throw).
Proof. intros file resolve rs i r Hi. exact (loads_at resolve rs [] i r Hi). Qed.
Print Assumptions C91_first_text.

(** Hence two requests for one name give one text. *)
Theorem C91_same_text : forall file (resolve : name -> file) rs i j r q t s,
  nth_error rs i = Some r -> nth_error rs j = Some q ->
  absolute (at_cwd r) (wanted r) = absolute (at_cwd q) (wanted q) ->
  nth_error (fst (loads resolve rs [])) i = Some (Ok t) -> nth_error (fst (loads resolve rs [])) j = Some (Ok s) -> t = s.
Proof.
  intros file resolve rs i j r q t s Hi Hj E Ht Hs.
  assert (A : cached (snd (loads resolve rs [])) (absolute (at_cwd r) (wanted r)) = Some t)
    by (apply loads_cached; right; split; [reflexivity|]; now exists i, r).
  assert (B : cached (snd (loads resolve rs [])) (absolute (at_cwd r) (wanted r)) = Some s)
    by (apply loads_cached; right; split; [reflexivity|]; now exists j, q).
  congruence.
Qed.
Print Assumptions C91_same_text.

(** ** The samples of a process *)
Section Setups.
Context {file : Type}.
Variables (resolve : name -> file) (refers : text -> list name).

Definition extends (c c' : cache) : Prop := forall p t, cached c p = Some t -> cached c' p = Some t.
Lemma load_text_extends fs cwd p c : extends c (snd (load_text resolve fs cwd p c)).
Proof.
  intros q t H. unfold load_text. destruct (cached c (absolute cwd p)) as [s|] eqn:E; [exact H|].
  destruct (fs _); [|exact H]. cbn. destruct (same_name _ q) eqn:S; [|exact H]. apply same_iff in S. congruence.
Qed.
Lemma load_text_again fs fs' cwd p c c' t : fst (load_text resolve fs cwd p c) = Ok t ->
  extends (snd (load_text resolve fs cwd p c)) c' -> load_text resolve fs' cwd p c' = (Ok t, c').
Proof.
  unfold load_text. intros H X.
  assert (E : cached c' (absolute cwd p) = Some t).
  { apply X. destruct (cached c (absolute cwd p)) as [s|] eqn:E; [cbn in *; congruence|].
    destruct (fs _); cbn in *; [|discriminate]. rewrite same_refl. congruence. }
  now rewrite E.
Qed.
Lemma load_all_extends fs cwd ps : forall c, extends c (snd (load_all resolve fs cwd ps c)).
Proof.
  induction ps as [|p ps IH]; intros c q t H; [exact H|]. cbn [load_all].
  pose proof (load_text_extends fs cwd p c q t H) as A. destruct (load_text resolve fs cwd p c) as [[x| |] c1]; try exact A.
  cbn [snd] in A. specialize (IH c1 q t A). now destruct (load_all resolve fs cwd ps c1).
Qed.
Lemma load_all_again fs fs' cwd ps : forall c c' l, fst (load_all resolve fs cwd ps c) = Ok l ->
  extends (snd (load_all resolve fs cwd ps c)) c' -> load_all resolve fs' cwd ps c' = (Ok l, c').
Proof.
  induction ps as [|p ps IH]; intros c c' l; cbn [load_all].
  - cbn. intros [= <-] _. reflexivity.
  - pose proof (load_text_again fs fs' cwd p c c') as A. destruct (load_text resolve fs cwd p c) as [[x| |] c1]; try discriminate.
    pose proof (load_all_extends fs cwd ps c1) as E. specialize (IH c1 c').
    destruct (load_all resolve fs cwd ps c1) as [[y| |] c2]; try discriminate. cbn [fst snd bind] in *.
    intros [= <-] X. rewrite (A x eq_refl) by (intros q s Hq; apply X, E, Hq). now rewrite (IH y eq_refl X).
Qed.
Lemma read_setup_extends fs cwd p c : extends c (snd (read_setup resolve refers fs cwd p c)).
Proof.
  intros q t H. unfold read_setup. destruct (fs _); [|exact H].
  pose proof (load_text_extends fs cwd p c q t H) as A. destruct (load_text resolve fs cwd p c) as [[x| |] c1]; try exact A.
  pose proof (load_all_extends fs cwd (map (fun q => parent_path (absolute cwd p) ++ [slash] ++ q) (refers x)) c1 q t A) as B.
  now destruct (load_all _ _ _ _ c1).
Qed.
Lemma read_setup_again fs fs' cwd p c c' l : fst (read_setup resolve refers fs cwd p c) = Ok l ->
  extends (snd (read_setup resolve refers fs cwd p c)) c' -> fs' (resolve (absolute cwd p)) <> None ->
  read_setup resolve refers fs' cwd p c' = (Ok l, c').
Proof.
  unfold read_setup. intros H X N. destruct (fs' _) as [u|]; [clear N|congruence]. destruct (fs _); [|discriminate H].
  pose proof (load_text_again fs fs' cwd p c c') as A. destruct (load_text resolve fs cwd p c) as [[x| |] c1]; try discriminate H.
  set (ps := map (fun q => parent_path (absolute cwd p) ++ [slash] ++ q) (refers x)) in *.
  pose proof (load_all_extends fs cwd ps c1) as E. pose proof (load_all_again fs fs' cwd ps c1 c') as B.
  destruct (load_all resolve fs cwd ps c1) as [[y| |] c2]; try discriminate H. cbn [fst snd bind] in *.
  injection H as <-. rewrite (A x eq_refl) by (intros q s Hq; apply X, E, Hq). fold ps. now rewrite (B y eq_refl X).
Qed.
End Setups.

(** Once a sample has been set up, all later samples of the process are set up from the same
    texts, whatever has happened to the files, as long as there still is a file with the
    name of the configuration.  Missing in full: that file may be gone, refuted below. *)
Theorem C91_samples_partial : forall file (resolve : name -> file) refers fs fss cwd p c l,
  fst (read_setup resolve refers fs cwd p c) = Ok l ->
  (forall fs', In fs' fss -> fs' (resolve (absolute cwd p)) <> None) ->
  fst (setups resolve refers (fs :: fss) cwd p c) = repeat (Ok l) (Datatypes.S (List.length fss)).
Proof.
  intros file resolve refers fs fss cwd p c l H N. cbn [setups].
  assert (K : forall c', extends (snd (read_setup resolve refers fs cwd p c)) c' ->
    fst (setups resolve refers fss cwd p c') = repeat (Ok l) (List.length fss)).
  { clear - H N. induction fss as [|f fss IH]; intros c' X; [reflexivity|]. cbn [setups].
    rewrite (read_setup_again resolve refers fs f cwd p c c' l H X) by (apply N; now left).
    specialize (IH (fun fs' Hf => N fs' (or_intror Hf)) c' X). destruct (setups resolve refers fss cwd p c'). cbn in *. now rewrite IH. }
  destruct (read_setup resolve refers fs cwd p c) as [x c1]. cbn [fst snd] in *. subst x.
  specialize (K c1 (fun q t Q => Q)). destruct (setups resolve refers fss cwd p c1). cbn in *. now rewrite K.
Qed.
Print Assumptions C91_samples_partial.

(** ** The report *)
Lemma put_new r k t : ~ In k (map fst r) -> put r k t = r ++ [(k, t)].
Proof.
  induction r as [|[q s] r IH]; [reflexivity|]. cbn. intros H. destruct (same_name q k) eqn:S.
  - apply same_iff in S. tauto.
  - rewrite IH by tauto. reflexivity.
Qed.
Lemma report_from c l : forall r, NoDup (map fst r ++ map report_key l) -> (forall p, In p l -> cached c p <> None) ->
  fold_left (fun r p => match cached c p with Some t => put r (report_key p) t | None => r end) l r =
  r ++ map (fun p => (report_key p, match cached c p with Some t => t | None => [] end)) l.
Proof.
  induction l as [|p l IH]; intros r Nd Hc; [symmetry; apply app_nil_r|]. cbn [fold_left map].
  destruct (cached c p) as [t|] eqn:E; [|destruct (Hc p (or_introl eq_refl) E)].
  cbn [map] in Nd. rewrite put_new.
  - rewrite IH.
    + now rewrite <- app_assoc.
    + rewrite map_app, <- app_assoc. exact Nd.
    + intros q Hq. apply Hc. now right.
  - intros H. apply NoDup_remove_2 in Nd. apply Nd, in_or_app. now left.
Qed.

(** If no two files read have the same key, the report lists exactly the texts the run has
    used, each under the key of its name, whatever has happened to the files since. *)
Theorem C91_report_partial : forall file (resolve : name -> file) rs order,
  let xs := fst (loads resolve rs []) in
  let c := snd (loads resolve rs []) in
  Permutation order (all_loaded c) ->
  (forall p q, In p (all_loaded c) -> In q (all_loaded c) -> report_key p = report_key q -> p = q) ->
  NoDup (map fst (report c order)) /\
  forall k t, In (k, t) (report c order) <->
    exists i r, nth_error rs i = Some r /\ nth_error xs i = Some (Ok t) /\ k = report_key (absolute (at_cwd r) (wanted r)).
Proof.
  intros file resolve rs order xs c P Inj.
  assert (Nd : NoDup order) by (apply (Permutation_NoDup (Permutation_sym P)), loads_nodup; constructor).
  assert (Nk : NoDup (map report_key order)).
  { assert (Inj' : forall p q, In p order -> In q order -> report_key p = report_key q -> p = q)
      by (intros p q Hp Hq; apply Inj; now apply (Permutation_in _ P)).
    clear - Nd Inj'. induction Nd as [|p l Hn Nd IH]; [constructor|]. cbn. constructor.
    - rewrite in_map_iff. intros (q & E & Hq). apply Hn. rewrite (Inj' p q (or_introl eq_refl) (or_intror Hq) (eq_sym E)). exact Hq.
    - apply IH. intros a b Ha Hb. apply Inj'; now right. }
  assert (Hc : forall p, In p order -> cached c p <> None).
  { intros p Hp. apply (Permutation_in _ P) in Hp. apply cached_in in Hp. destruct Hp as (t & ->). discriminate. }
  assert (E : report c order = map (fun p => (report_key p, match cached c p with Some t => t | None => [] end)) order)
    by (unfold report; now rewrite report_from).
  rewrite E. split; [now rewrite map_map|].
  intros k t. rewrite in_map_iff. split.
  - intros (p & Q & Hp). destruct (cached c p) as [s|] eqn:F; [|destruct (Hc p Hp F)]. injection Q as <- <-.
    apply loads_cached in F. destruct F as [F|(_ & i & r & A & B & D)]; [discriminate F|]. exists i, r. repeat split; auto. now rewrite B.
  - intros (i & r & A & B & ->). exists (absolute (at_cwd r) (wanted r)).
    assert (F : cached c (absolute (at_cwd r) (wanted r)) = Some t)
      by (apply loads_cached; right; split; [reflexivity|]; now exists i, r).
    rewrite F. split; [reflexivity|]. apply (Permutation_in _ (Permutation_sym P)). apply cached_in. now exists t.
Qed.
Print Assumptions C91_report_partial.

(** The key of a name, one character after the other. *)
Definition token (c : ascii) : name :=
  if ascii_dec c slash then nm "_dash_" else if ascii_dec c dot then nm "_DOT_" else [c].
Lemma key_tokens p : report_key p = flat_map token p.
Proof.
  unfold report_key. induction p as [|c p IH]; [reflexivity|]. cbn [flat_map]. rewrite <- IH.
  unfold replace_all at 1 2. cbn [flat_map]. rewrite flat_map_app. fold (replace_all slash (nm "_dash_") p).
  fold (replace_all dot (nm "_DOT_") (replace_all slash (nm "_dash_") p)). f_equal. unfold token.
  destruct (ascii_dec c slash) as [->|]; [reflexivity|]. cbn [flat_map]. destruct (ascii_dec c dot); reflexivity.
Qed.
Lemma read_back s : Forall (fun c => c <> "_"%char) s -> forall q rest, flat_map token q = s ++ rest ->
  exists q', q = s ++ q' /\ flat_map token q' = rest.
Proof.
  induction 1 as [|c s Hc _ IH]; intros q rest E; [now exists q|].
  destruct q as [|d q]; [discriminate E|]. cbn [flat_map] in E. unfold token at 1 in E.
  destruct (ascii_dec d slash); [cbn in E; congruence|]. destruct (ascii_dec d dot); [cbn in E; congruence|].
  cbn in E. injection E as -> E. destruct (IH q rest E) as (q' & -> & F). now exists q'.
Qed.
Lemma contains_tail s c p : contains s p -> contains s (c :: p).
Proof. intros (a & b & ->). now exists (c :: a), b. Qed.
Lemma contains_head s c q : contains s (c :: s ++ q).
Proof. now exists [c], q. Qed.
Lemma plain_tail c p : plain_name (c :: p) -> plain_name p.
Proof. intros [A B]. split; intros H; [apply A|apply B]; now apply contains_tail. Qed.
Lemma token_clash t s d p q : Forall (fun c => c <> "_"%char) s -> t = "_"%char :: s ++ ["_"%char] ->
  d <> slash -> d <> dot -> t ++ p = flat_map token (d :: q) -> contains s (d :: q).
Proof.
  intros Hs -> N1 N2 E. cbn [flat_map] in E. unfold token at 1 in E.
  destruct (ascii_dec d slash); [contradiction|]. destruct (ascii_dec d dot); [contradiction|].
  cbn in E. injection E as <- E. rewrite <- app_assoc in E. symmetry in E. destruct (read_back s Hs q _ E) as (q' & -> & _). apply contains_head.
Qed.
Lemma keys_injective p : forall q, plain_name p -> plain_name q -> flat_map token p = flat_map token q -> p = q.
Proof.
  assert (D1 : Forall (fun c => c <> "_"%char) (nm "dash")) by (repeat constructor; discriminate).
  assert (D2 : Forall (fun c => c <> "_"%char) (nm "DOT")) by (repeat constructor; discriminate).
  induction p as [|c p IH]; intros [|d q] Hp Hq E; [reflexivity| | |].
  - cbn [flat_map] in E. unfold token at 1 in E. destruct (ascii_dec d slash); [discriminate|]. destruct (ascii_dec d dot); discriminate.
  - cbn [flat_map] in E. unfold token at 1 in E. destruct (ascii_dec c slash); [discriminate|]. destruct (ascii_dec c dot); discriminate.
  - pose proof (plain_tail _ _ Hp) as Tp. pose proof (plain_tail _ _ Hq) as Tq.
    pose proof (fun t s Hs Ht N1 N2 => token_clash t s d (flat_map token p) q Hs Ht N1 N2) as K.
    pose proof (fun t s Hs Ht N1 N2 => token_clash t s c (flat_map token q) p Hs Ht N1 N2) as K'.
    destruct Hp as [P1 P2], Hq as [Q1 Q2].
    destruct (ascii_dec c slash) as [->|C1]; destruct (ascii_dec d slash) as [->|D3].
    + f_equal. apply IH; auto. cbn [flat_map] in E. now apply app_inv_head in E.
    + destruct (ascii_dec d dot) as [->|D4]; [discriminate E|].
      destruct Q1. apply (K (nm "_dash_") (nm "dash") D1 eq_refl D3 D4). exact E.
    + destruct (ascii_dec c dot) as [->|C2]; [discriminate E|].
      destruct P1. apply (K' (nm "_dash_") (nm "dash") D1 eq_refl C1 C2). symmetry. exact E.
    + destruct (ascii_dec c dot) as [->|C2]; destruct (ascii_dec d dot) as [->|D4].
      * f_equal. apply IH; auto. cbn [flat_map] in E. now apply app_inv_head in E.
      * destruct Q2. apply (K (nm "_DOT_") (nm "DOT") D2 eq_refl D3 D4). exact E.
      * destruct P2. apply (K' (nm "_DOT_") (nm "DOT") D2 eq_refl C1 C2). symmetry. exact E.
      * cbn [flat_map] in E. unfold token at 1 3 in E. destruct (ascii_dec c slash); [contradiction|]. destruct (ascii_dec c dot); [contradiction|].
        destruct (ascii_dec d slash); [contradiction|]. destruct (ascii_dec d dot); [contradiction|]. cbn in E. injection E as -> E. f_equal. now apply IH.
Qed.

(** Names with neither "dash" nor "DOT" in them keep apart in the report. *)
Theorem C91_plain_names : forall p q, plain_name p -> plain_name q -> report_key p = report_key q -> p = q.
Proof. intros p q Hp Hq. rewrite !key_tokens. now apply keys_injective. Qed.
Print Assumptions C91_plain_names.

(** ** What goes wrong *)
Definition on_disk (l : list (name * text)) : files (file := name) := fun p => cached l p.
Definition ask (l : list (name * text)) (p : string) : request := mkrequest (file := name) (on_disk l) (nm "/run") (nm p).

(** Two files with different texts, one child in the report: only one of the texts used. *)
Theorem C91_report_refuted : exists rs : list request,
  let xs := fst (loads (fun p => p) rs []) in
  let c := snd (loads (fun p => p) rs []) in
  (forall x, In x xs -> exists t, x = Ok t) /\
  forall order, Permutation order (all_loaded c) ->
    exists t, In (Ok t) xs /\ forall k, ~ In (k, t) (report c order).
Proof.
  set (disk := [(nm "/run/a/b.py", nm "one"); (nm "/run/a_dash_b.py", nm "two")]).
  exists [ask disk "a/b.py"; ask disk "a_dash_b.py"]. intros xs c. split.
  - intros x [<-|[<-|[]]]; eexists; reflexivity.
  - change (all_loaded c) with [nm "/run/a_dash_b.py"; nm "/run/a/b.py"]. intros order P.
    symmetry in P. apply Permutation_length_2_inv in P. destruct P as [->| ->].
    + exists (nm "two"). split; [right; left; reflexivity|]. intros k. vm_compute. intros [H|[]]. discriminate H.
    + exists (nm "one"). split; [left; reflexivity|]. intros k. vm_compute. intros [H|[]]. discriminate H.
Qed.
Print Assumptions C91_report_refuted.

(** One file under two spellings, edited in between: two texts. *)
Theorem C91_spellings_refuted : exists (resolve : name -> nat) (rs : list (request (file := nat))) (p q : name) t s,
  resolve (absolute (nm "/run") p) = resolve (absolute (nm "/run") q) /\
  map wanted rs = [p; q] /\ (forall r, In r rs -> at_cwd r = nm "/run") /\
  fst (loads resolve rs []) = [Ok t; Ok s] /\ t <> s.
Proof.
  exists (fun _ => 0), [mkrequest (file := nat) (fun _ => Some (nm "cfl 0.4")) (nm "/run") (nm "case.xml");
                 mkrequest (file := nat) (fun _ => Some (nm "cfl 0.9")) (nm "/run") (nm "./case.xml")], (nm "case.xml"), (nm "./case.xml"), (nm "cfl 0.4"), (nm "cfl 0.9").
  split; [reflexivity|]. split; [reflexivity|]. split; [intros r [<-|[<-|[]]]; reflexivity|]. split; [reflexivity|discriminate].
Qed.
Print Assumptions C91_spellings_refuted.

(** Two processes have a cache each: a file edited between their requests gives two texts,
    and the report of the first process has only one of them. *)
Theorem C91_processes_refuted : exists (r0 r1 : request (file := name)) t s,
  at_cwd r0 = at_cwd r1 /\ wanted r0 = wanted r1 /\
  fst (loads (fun p => p) [r0] []) = [Ok t] /\ fst (loads (fun p => p) [r1] []) = [Ok s] /\ t <> s /\
  report (snd (loads (fun p => p) [r0] [])) (all_loaded (snd (loads (fun p => p) [r0] []))) = [(report_key (absolute (at_cwd r0) (wanted r0)), t)].
Proof.
  exists (ask [(nm "/run/case.xml", nm "cfl 0.4")] "case.xml"), (ask [(nm "/run/case.xml", nm "cfl 0.9")] "case.xml"), (nm "cfl 0.4"), (nm "cfl 0.9").
  repeat (split; [reflexivity|]). split; [discriminate|reflexivity].
Qed.
Print Assumptions C91_processes_refuted.

(** The text of the configuration is in the cache, but the sample after the file is gone
    throws. *)
Theorem C91_samples_refuted : exists (fs fs' : files (file := name)) p l,
  let refers := fun _ => [nm "sod.py"] in
  fst (setups (fun p => p) refers [fs; fs'] (nm "/run") p []) = [Ok l; Throw] /\
  fst (load_text (fun p => p) fs' (nm "/run") p (snd (read_setup (fun p => p) refers fs (nm "/run") p []))) = Ok (hd [] l).
Proof.
  exists (on_disk [(nm "/run/sod.xml", nm "config"); (nm "/run/sod.py", nm "rho = 1")]), (on_disk []), (nm "sod.xml"), [nm "config"; nm "rho = 1"].
  split; reflexivity.
Qed.
Print Assumptions C91_samples_refuted.

(** Three samples; both files are edited after the first one. *)
Example C91_case_samples :
  let old := on_disk [(nm "/run/sod.xml", nm "config"); (nm "/run/sod.py", nm "rho = 1")] in
  let new := on_disk [(nm "/run/sod.xml", nm "other"); (nm "/run/sod.py", nm "rho = 2")] in
  fst (setups (fun p => p) (fun _ => [nm "sod.py"]) [old; new; new] (nm "/run") (nm "sod.xml") []) =
  repeat (Ok [nm "config"; nm "rho = 1"]) 3.
Proof. apply C91_samples_partial; [reflexivity|]. intros fs' [<-|[<-|[]]]; discriminate. Qed.
(** A request before the file is there, one after, one after an edit; and the report. *)
Definition late : list request :=
  [ask [] "sod.py"; ask [(nm "/run/sod.py", nm "rho = 1")] "sod.py"; ask [(nm "/run/sod.py", nm "rho = 2")] "/run/sod.py"].
Example C91_case_late : fst (loads (fun p => p) late []) = [Throw; Ok (nm "rho = 1"); Ok (nm "rho = 1")].
Proof. reflexivity. Qed.
Example C91_case_report : let c := snd (loads (fun p => p) late []) in
  report c (all_loaded c) = [(nm "_dash_run_dash_sod_DOT_py", nm "rho = 1")] /\
  (forall p q, In p (all_loaded c) -> In q (all_loaded c) -> report_key p = report_key q -> p = q).
Proof. split; [reflexivity|]. intros p q [<-|[]] [<-|[]] _. reflexivity. Qed.
Example C91_case_plain : plain_name (nm "/run/sod.py").
Proof.
  split; intros (a & b & H).
  all: do 11 (destruct a as [|? a]; [discriminate H|cbn in H; injection H as _ H]); destruct a; discriminate H.
Qed.
