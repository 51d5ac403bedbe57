(** * Properties of building the program and finding it again. *)
From Coq Require Import String.
From Coq Require Import List Bool Arith Lia.
From Verif Require Import Base Build.
Import ListNotations.
Local Open Scope string_scope.

(** ** Specification vocabulary *)

(** The folder of the last build, among the steps that [ok] calls builds. *)
Fixpoint last_built (A : Type) (ok : A -> option string) (ops : list A) : option string :=
  match ops with
  | [] => None
  | o :: t => match last_built A ok t with
              | Some d => Some d
              | None => ok o
              end
  end.
Arguments last_built {A}.
(** Both commands have ended well. *)
Definition r_ok (o : r_op) : option string :=
  match o with RBuild d (Exit 0) (Exit 0) => Some d | _ => None end.
Definition py_ok (o : py_op) : option string :=
  match o with PBuild d (Exit 0) (Exit 0) _ => Some d | _ => None end.
(** Both commands have been found; how they ended is left open. *)
Definition py_tried (o : py_op) : option string :=
  match o with PBuild d (Exit _) (Exit _) _ => Some d | _ => None end.
(** No environment handed to a new process names the program. *)
Definition r_plain (o : r_op) : Prop := match o with RStart e => e "BAYESMIX_EXE" = None | _ => True end.
Definition is_start (o : py_op) : bool := match o with PStart _ => true | _ => false end.

(** ** Facts *)

Lemma last_built_snoc : forall A (ok : A -> option string) ops o,
  last_built ok (app ops [o]) = match ok o with Some d => Some d | None => last_built ok ops end.
Proof.
  intros A ok ops o. induction ops as [|x t IH]; cbn [last_built app]; [destruct (ok o); reflexivity|].
  rewrite IH. destruct (ok o); reflexivity.
Qed.
Lemma setv_same : forall e k v, setv e k v k = Some v.
Proof. intros. unfold setv. now rewrite String.eqb_refl. Qed.
Lemma setv_other : forall e k v x, x <> k -> setv e k v x = e x.
Proof. intros e k v x H. unfold setv. now apply String.eqb_neq in H as ->. Qed.
Lemma value_snoc : forall f k v x, value (app f [(k, v)]) x = if k =? x then Some v else value f x.
Proof. intros. unfold value. rewrite fold_left_app. cbn. reflexivity. Qed.
Lemma fold_value : forall f e x,
  fold_left (fun e p => setv e (fst p) (snd p)) f e x = match value f x with Some v => Some v | None => e x end.
Proof.
  induction f as [|[k v] f IH] using rev_ind; intros e x; [reflexivity|].
  rewrite fold_left_app, value_snoc. cbn [fold_left fst snd]. unfold setv at 1.
  rewrite (String.eqb_sym x k). destruct (k =? x); [reflexivity|apply IH].
Qed.
Lemma renviron_env : forall w x,
  r_env (read_renviron w) x = match value (r_file w) x with Some v => Some v | None => r_env w x end.
Proof. intros w x. apply fold_value. Qed.
Lemma value_set_key : forall f k v, value (set_key f k v) k = Some v.
Proof.
  intros f k v. unfold set_key. destruct (existsb _ f) eqn:E.
  - induction f as [|[a b] f IH] using rev_ind; [discriminate|].
    rewrite map_app. cbn [map fst]. destruct (a =? k) eqn:Ea.
    + rewrite value_snoc. now rewrite String.eqb_refl.
    + rewrite value_snoc, Ea. apply IH. rewrite existsb_app in E. cbn in E. rewrite Ea in E.
      now rewrite !orb_false_r in E.
  - rewrite value_snoc. now rewrite String.eqb_refl.
Qed.

(** ** C140 *)

Section R.
  Variables (dirname : string -> string) (home : string).
  Hypothesis home_set : home <> "".

  (** What the file of the package holds after any steps. *)
  Definition r_inv (w : rw) (built : option string) : Prop :=
    value (r_file w) "BAYESMIXR_HOME" = Some home /\
    value (r_file w) "BAYESMIX_EXE" =
      match built with Some d => Some (dirname (dirname home) ++ "/" ++ d ++ "/run_mcmc") | None => None end /\
    value (r_file w) "TBB_PATH" =
      match built with Some _ => Some (dirname (dirname home) ++ "/lib/_deps/math-src/lib/tbb") | None => None end /\
    (built = None -> r_env w "BAYESMIX_EXE" = None).

  Lemma r_inv_read : forall w b, r_inv w b -> r_inv (read_renviron w) b.
  Proof.
    intros w b (H1 & H2 & H3 & H4). split; [exact H1|]. split; [exact H2|]. split; [exact H3|].
    intros ->. rewrite renviron_env, H2. now apply H4.
  Qed.
  Lemma r_build_eq : forall d c m w b, r_inv w b ->
    r_build dirname d c m w =
      match c, m with
      | Exit 0, Exit 0 =>
          (read_renviron (mkR (app (r_file w) [("BAYESMIX_EXE", dirname (dirname home) ++ "/" ++ d ++ "/run_mcmc");
                                                 ("TBB_PATH", dirname (dirname home) ++ "/lib/_deps/math-src/lib/tbb")])
                              (r_env (read_renviron w))), Ok tt)
      | Exit 0, _ => (read_renviron w, Throw "Something went wrong during build")
      | _, _ => (read_renviron w, Throw "Something went wrong during configure")
      end.
  Proof.
    intros d c m w b (H1 & _). unfold r_build. unfold getenv at 1. rewrite renviron_env, H1.
    apply String.eqb_neq in home_set. rewrite home_set. unfold getenv. rewrite renviron_env, H1.
    destruct c as [|[|c]]; [reflexivity| |reflexivity]. destruct m as [|[|m]]; reflexivity.
  Qed.
  Lemma r_inv_build : forall d c m w b, r_inv w b ->
    r_inv (fst (r_build dirname d c m w)) (match r_ok (RBuild d c m) with Some d' => Some d' | None => b end).
  Proof.
    intros d c m w b H. rewrite (r_build_eq d c m w b H). assert (Hr := r_inv_read w b H).
    destruct c as [|[|c]]; [exact Hr| |exact Hr]. destruct m as [|[|m]]; [exact Hr| |exact Hr].
    cbn [fst r_ok]. apply r_inv_read. destruct H as (H1 & H2 & H3 & H4).
    unfold r_inv. cbn [r_file r_env]. 
    assert (Ev : forall p q x, value (app (r_file w) [p; q]) x = if fst q =? x then Some (snd q) else if fst p =? x then Some (snd p) else value (r_file w) x).
    { intros [k1 v1] [k2 v2] x. change [(k1, v1); (k2, v2)] with (app [(k1, v1)] [(k2, v2)]). now rewrite app_assoc, !value_snoc. }
    rewrite !Ev. cbn. split; [exact H1|]. split; [reflexivity|]. split; [reflexivity|]. discriminate.
  Qed.
  Lemma r_inv_run : forall ops w b, r_inv w b -> Forall r_plain ops ->
    r_inv (fold_left (r_do dirname) ops w) (match last_built r_ok ops with Some d => Some d | None => b end).
  Proof.
    induction ops as [|o ops IH] using rev_ind; intros w b H HF; [exact H|].
    rewrite fold_left_app, last_built_snoc. cbn [fold_left]. apply Forall_app in HF. destruct HF as [HF Ho].
    apply Forall_inv in Ho. specialize (IH w b H HF). set (w' := fold_left (r_do dirname) ops w) in *.
    destruct o as [d c m| | | |e].
    - cbn [r_do]. assert (HB := r_inv_build d c m w' _ IH). destruct (r_ok (RBuild d c m)); exact HB.
    - cbn [r_do r_ok]. unfold r_run. destruct (_ =? "")%string; cbn [fst]; now apply r_inv_read.
    - now apply r_inv_read.
    - destruct IH as (H1 & H2 & H3 & H4). repeat split; assumption.
    - destruct IH as (H1 & H2 & H3 & H4). repeat split; try assumption. intros _. exact Ho.
  Qed.
End R.

(** R: after the installation and any builds, runs, attaching and detaching of the
    package and new sessions, a run calls the program of the last build whose two
    commands ended well; before the first of these it stops. *)
Theorem C140_r : forall dirname home e ops, home <> "" -> e "BAYESMIX_EXE" = None -> Forall r_plain ops ->
  snd (r_run (fold_left (r_do dirname) ops (r_installed home e))) =
    match last_built r_ok ops with
    | Some d => Ok (dirname (dirname home) ++ "/" ++ d ++ "/run_mcmc",
                    dirname (dirname home) ++ "/lib/_deps/math-src/lib/tbb")
    | None => Throw "BAYESMIX_EXE environment variable is not set"
    end.
Proof.
  intros dirname home e ops Hh He HF.
  assert (H0 : r_inv dirname home (r_installed home e) None) by (repeat split; intros; exact He).
  assert (H := r_inv_run dirname home Hh ops _ _ H0 HF).
  set (w := fold_left (r_do dirname) ops (r_installed home e)) in *.
  destruct H as (_ & H2 & H3 & H4). unfold r_run, getenv. rewrite !renviron_env.
  destruct (last_built r_ok ops) as [d|].
  - rewrite H2, H3. destruct (_ =? "")%string eqn:E; [|reflexivity].
    exfalso. apply String.eqb_eq in E. assert (L := f_equal String.length E). revert L.
    clear. generalize (dirname (dirname home)). intros s. induction s; cbn; discriminate.
  - rewrite H2, (H4 eq_refl). reflexivity.
Qed.
Print Assumptions C140_r.

(** R: a build answers exactly when its commands end well, and one that does not
    leaves the file as it was. *)
Theorem C140_r_failures : forall dirname home e ops d c m, home <> "" -> e "BAYESMIX_EXE" = None -> Forall r_plain ops ->
  let w := fold_left (r_do dirname) ops (r_installed home e) in
  (c = Exit 0 /\ m = Exit 0 /\ snd (r_build dirname d c m w) = Ok tt) \/
  (~ (c = Exit 0 /\ m = Exit 0) /\ (exists s, snd (r_build dirname d c m w) = Throw s) /\
   r_file (fst (r_build dirname d c m w)) = r_file w).
Proof.
  intros dirname home e ops d c m Hh He HF w.
  assert (H0 : r_inv dirname home (r_installed home e) None) by (repeat split; intros; exact He).
  assert (H := r_inv_run dirname home Hh ops _ _ H0 HF). fold w in H.
  rewrite (r_build_eq dirname home Hh d c m w _ H).
  destruct c as [|[|c]]; [right| |right].
  - split; [intros [K _]; discriminate|]. split; [eexists; reflexivity|reflexivity].
  - destruct m as [|[|m]]; [right|left; auto|right];
      (split; [intros [_ K]; discriminate|]; split; [eexists; reflexivity|reflexivity]).
  - split; [intros [K _]; discriminate|]. split; [eexists; reflexivity|reflexivity].
Qed.
Print Assumptions C140_r_failures.

(** Python: how the commands ended makes no difference. *)
Theorem C140_py_blind : forall home d a b t w,
  py_build home d (Exit a) (Exit b) t w = py_build home d (Exit 0) (Exit 0) t w.
Proof. reflexivity. Qed.
Print Assumptions C140_py_blind.

Lemma py_file_inv : forall home ops w,
  (forall d, last_built py_tried ops = Some d ->
     exists f, py_file (fold_left (py_do home) ops w) = Some f /\
               value f "BAYESMIX_EXE" = Some (home ++ "/" ++ d ++ "/run_mcmc")) /\
  (last_built py_tried ops = None -> py_file (fold_left (py_do home) ops w) = py_file w).
Proof.
  intros home ops w. induction ops as [|o ops [IH1 IH2]] using rev_ind; [split; [discriminate|reflexivity]|].
  rewrite fold_left_app, last_built_snoc. cbn [fold_left]. set (w' := fold_left (py_do home) ops w) in *.
  assert (K : py_tried o = None -> py_file (py_do home w' o) = py_file w').
  { destruct o as [d c m t| |e]; cbn [py_do py_tried].
    - destruct c; [reflexivity|]. destruct m; [reflexivity|]. discriminate.
    - intros _. unfold py_run. destruct (load_dotenv _ _ _); reflexivity.
    - reflexivity. }
  destruct (py_tried o) as [d|] eqn:Eo.
  - split; [|discriminate]. intros d' [= <-].
    destruct o as [d0 c m t| |e]; [|discriminate|discriminate].
    destruct c; [discriminate|]. destruct m; [discriminate|]. injection Eo as ->.
    exists (set_key (match py_file w' with Some l => l | None => [] end) "BAYESMIX_EXE" (home ++ "/" ++ d ++ "/run_mcmc")).
    split; [|apply value_set_key]. destruct t as [[|[|t]]|]; reflexivity.
  - rewrite (K eq_refl). split; assumption.
Qed.

(** Python: in a new process, the first run calls the program of the last build
    whose commands were found. *)
Theorem C140_py : forall home ops e d, last_built py_tried ops = Some d -> e "BAYESMIX_EXE" = None ->
  forall w, snd (py_run (fold_left (py_do home) (app ops [PStart e]) w)) = Ok (home ++ "/" ++ d ++ "/run_mcmc").
Proof.
  intros home ops e d Hd He w. rewrite fold_left_app. cbn [fold_left].
  destruct (proj1 (py_file_inv home ops w) d Hd) as [f [Hf Hv]].
  unfold py_run, load_dotenv. cbn [py_do py_file py_env]. rewrite He, Hf, Hv. reflexivity.
Qed.
Print Assumptions C140_py.

(** Python: a process keeps to the program of its first run, whatever is built in
    it afterwards. *)
Theorem C140_py_keeps : forall home w w1 p ops, py_run w = (w1, Ok p) -> forallb (fun o => negb (is_start o)) ops = true ->
  snd (py_run (fold_left (py_do home) ops w1)) = Ok p.
Proof.
  intros home w w1 p ops H HF.
  assert (E1 : py_env w1 "BAYESMIX_EXE" = Some p).
  { revert H. unfold py_run. destruct (load_dotenv (py_file w) (py_env w) "BAYESMIX_EXE") eqn:E; [|discriminate].
    intros [= <- <-]. exact E. }
  assert (K : py_env (fold_left (py_do home) ops w1) "BAYESMIX_EXE" = Some p).
  { clear H. revert w1 E1 HF. induction ops as [|o ops IH]; intros w1 E1 HF; [exact E1|].
    cbn [forallb] in HF. apply andb_prop in HF. destruct HF as [Ho HF]. cbn [fold_left]. apply IH; [|exact HF].
    destruct o as [d c m t| |e]; [| |discriminate]; cbn [py_do].
    - unfold py_build. destruct c; [exact E1|]. destruct m; [exact E1|]. destruct t as [[|[|t]]|]; exact E1.
    - unfold py_run. destruct (load_dotenv _ _ _) eqn:E; cbn; unfold load_dotenv; now rewrite E1. }
  unfold py_run, load_dotenv. rewrite K. reflexivity.
Qed.
Print Assumptions C140_py_keeps.

(** *** A build, a run, a build elsewhere; a failed build *)
Definition no_vars : vars := fun _ => None.
Definition up (s : string) : string := if s =? "/b/R/bayesmixr" then "/b/R" else "/b".
Example C140_example :
  snd (r_run (fold_left (r_do up) [RAttach; RBuild "build" (Exit 0) (Exit 0); RRun; RBuild "build2" (Exit 0) (Exit 0);
                                   RBuild "build3" (Exit 0) (Exit 2); RDetach; RStart no_vars]
                        (r_installed "/b/R/bayesmixr" no_vars)))
  = Ok ("/b/build2/run_mcmc", "/b/lib/_deps/math-src/lib/tbb") /\
  snd (py_run (fold_left (py_do "/b") [PBuild "build" (Exit 0) (Exit 0) (Some (Exit 0)); PRun;
                                       PBuild "build2" (Exit 0) (Exit 0) (Some (Exit 1)); PStart no_vars]
                         (mkPy None no_vars))) = Ok "/b/build2/run_mcmc".
Proof. split; reflexivity. Qed.

(** "A run calls the program of the last build" fails in Python: the variable of
    the first run stays. *)
Theorem C140_py_last_refuted : exists home ops d p, last_built py_ok ops = Some d /\
  forallb (fun o => negb (is_start o)) ops = true /\
  snd (py_run (fold_left (py_do home) ops (mkPy None no_vars))) = Ok p /\ p <> home ++ "/" ++ d ++ "/run_mcmc".
Proof.
  exists "/b", [PBuild "build" (Exit 0) (Exit 0) (Some (Exit 0)); PRun; PBuild "build2" (Exit 0) (Exit 0) (Some (Exit 0))],
    "build2", "/b/build/run_mcmc". repeat split. discriminate.
Qed.
Print Assumptions C140_py_last_refuted.
(** "A build that fails is reported and its program is not called" fails in
    Python. *)
Theorem C140_py_failure_refuted : exists home d c m w, c <> Exit 0 /\ m <> Exit 0 /\
  snd (py_build home d c m (Some (Exit 0)) w) = Ok (Some true) /\
  snd (py_run (fst (py_build home d c m (Some (Exit 0)) w))) = Ok (home ++ "/" ++ d ++ "/run_mcmc").
Proof. exists "/b", "build", (Exit 1), (Exit 2), (mkPy None no_vars). repeat split; discriminate. Qed.
Print Assumptions C140_py_failure_refuted.
