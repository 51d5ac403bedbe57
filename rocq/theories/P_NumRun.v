(** * Property theorems: the plots of a run, down to the text of its files (C128). *)
From Coq Require Import String Ascii.
From Coq Require Import List Bool Arith ZArith Reals Lia Lra.
From Flocq Require Core.
From Verif Require NumText NumTextFacts P_NumText Utils.
From Verif Require Import Base Args ArgsFacts Main Launch LaunchFacts LaunchMore Plots PlotFacts PlotMain PlotMainFacts P_PlotMain.
Import ListNotations.
Local Open Scope string_scope.

(** [read_eigen_matrix] on the text of a file; [other] is what a cell holds that is not
    a number. *)
Definition read_file (other : R) (text : string) : res rmat :=
  m <- NumText.read_reals other text ;; Ok (mkMat (Utils.m_nc m) (Utils.m_rows m)).

Lemma read_column : forall other l, l <> [] -> Forall (fun n => Z.of_nat n <= 2 ^ 24)%Z l ->
  read_file other (NumText.show_ints (map (fun n => [n]) l)) = Ok (mkMat 1 (map (fun n => [INR n]) l)).
Proof.
  intros other l N F. unfold read_file. rewrite (P_NumText.C128_integer_files (map (fun n => [n]) l) 1 other).
  - cbn [rbind Utils.m_nc Utils.m_rows]. do 2 f_equal. rewrite map_map. reflexivity.
  - destruct l; [congruence|discriminate].
  - lia.
  - intros r H. apply in_map_iff in H. destruct H as (n & <- & _). reflexivity.
  - apply Forall_map. eapply Forall_impl; [|exact F]. intros n Hn. repeat constructor. exact Hn.
Qed.

(** With numbers of clusters up to 2^24, the plots of a run show what was saved: the text
    of the file in between loses nothing. *)
Theorem C128_plots_of_a_run : forall writable O M other build hdep mdep n_rows sample encode decode left_over eval show allocs (nclus : M -> nat) blank estimate render,
  (forall l, decode (encode l) = Ok l) ->
  let run := main_program writable O M rmat (read_file other) build hdep mdep n_rows sample encode decode left_over eval show NumText.show_ints allocs nclus blank estimate in
  let plot := plot_program writable (read_file other) render in
  forall kv st fs fs1 kv2 fs2, pairs_ok kv -> incl ("--coll-name" :: required_names) (map fst kv) ->
  parse_args run_options (flat kv) = Parsed st -> separate st -> run (flat kv) fs = (fs1, Exited 0) ->
  plot_pairs kv2 -> apart_plots kv2 -> plot (flat kv2) fs1 = (fs2, Exited 0) ->
  get st "--n-cl-file" = Ok (given kv2 "--n-cl-file") -> given kv2 "--n-cl-file" <> EMPTYSTR ->
  exists o data hc mc chain, sample o data hc mc = Ok chain /\ (chain <> [] -> Forall (fun m => Z.of_nat (nclus m) <= 2 ^ 24)%Z chain ->
    (given kv2 "--n-cl-trace-plot" <> EMPTYSTR -> exists d,
       trace_of (map (fun m => INR (nclus m)) chain) d /\ fs2 (given kv2 "--n-cl-trace-plot") = Some (render d)) /\
    (given kv2 "--n-cl-bar-plot" <> EMPTYSTR -> exists d,
       bars_of (map (fun m => Z.of_nat (nclus m)) chain) d /\ fs2 (given kv2 "--n-cl-bar-plot") = Some (render d))).
Proof.
  intros writable O M other build hdep mdep n_rows sample encode decode left_over eval show allocs nclus blank estimate render De run plot.
  exact (C126_after_run writable O M (read_file other) build hdep mdep n_rows sample encode decode left_over eval show NumText.show_ints allocs nclus blank estimate render De (2 ^ 24)%Z (read_column other)).
Qed.
Print Assumptions C128_plots_of_a_run.

(** ** Examples *)
Example C128_column_text : NumText.show_ints [[2]; [31]; [0]] = String "2" (String Utils.newline (String "3" (String "1" (String Utils.newline (String "0" EmptyString))))).
Proof. reflexivity. Qed.

Example C128_column_instance : read_file 7 (NumText.show_ints [[2]; [31]; [0]]) = Ok (mkMat 1 [[INR 2]; [INR 31]; [INR 0]]).
Proof. apply (read_column 7 [2; 31; 0]); [discriminate|repeat constructor; lia]. Qed.

(** A run that saves states with two and three clusters, followed by a bar chart. *)
Notation small_run read := (main_program toy_writes unit nat rmat read (fun _ _ _ _ _ => Ok tt) (fun _ => false) (fun _ => false)
  (fun _ => 1) (fun _ _ _ _ => Ok [2; 3]) (fun l => marks_show (map (fun n => [n]) l)) (fun s => Ok (marks_read 0 s)) "" (fun _ _ g _ _ => Ok g)
  (fun _ => "") NumText.show_ints (fun _ => [0]) (fun n => n) 0 (fun _ => Ok [0])).
Definition one_number : files := fun f => if f =? "data" then Some "4" else None.

Lemma small_run_ends : forall read m, read "4" = Ok m -> exists fs1, small_run read (flat run_kv) one_number = (fs1, Exited 0) /\ fs1 "ncl" = Some (NumText.show_ints [[2]; [3]]).
Proof. intros read m R. eexists. split; [vm_compute; vm_compute in R; rewrite R; reflexivity|reflexivity]. Qed.

Example C128_plots_instance : exists fs1 fs2, small_run (read_file 7) (flat run_kv) one_number = (fs1, Exited 0) /\
  plot_program toy_writes (read_file 7) toy_render (flat draw_kv) fs1 = (fs2, Exited 0) /\ fs2 "b.png" = Some "B".
Proof.
  assert (R4 : read_file 7 "4" = Ok (mkMat 1 [[INR 4]])) by (apply (read_column 7 [4]); [discriminate|repeat constructor; lia]).
  destruct (small_run_ends (read_file 7) _ R4) as (fs1 & R & N).
  destruct ex_C126_after_run as (_ & _ & P & I & Q & A & st & _ & _ & Ps & S & G & _).
  assert (C : plot_program toy_writes (read_file 7) toy_render (flat draw_kv) fs1 = (fst (plot_program toy_writes (read_file 7) toy_render (flat draw_kv) fs1), Exited 0)).
  { rewrite <- (C126_completes toy_writes (read_file 7) toy_render draw_kv fs1 Q A).
    - apply surjective_pairing.
    - intros f [<-|[]]. reflexivity.
    - intros _ _. exists (mkMat 1 (map (fun n => [INR n]) [2; 3])). split; [exists (NumText.show_ints [[2]; [3]]); split; [exact N|apply (read_column 7 [2; 3]); [discriminate|repeat constructor; lia]]|].
      intros _. split; [reflexivity|discriminate].
    - intro C. elim C. reflexivity. }
  set (fs2 := fst (plot_program toy_writes (read_file 7) toy_render (flat draw_kv) fs1)) in *. exists fs1, fs2. split; [exact R|]. split; [exact C|].
  destruct (C128_plots_of_a_run toy_writes unit nat 7 _ _ _ _ _ _ _ _ _ _ _ _ _ _ toy_render (fun l => f_equal Ok (marks_all l)) run_kv st one_number fs1 draw_kv fs2 P I Ps S R Q A C G ltac:(discriminate))
    as (o & data & hc & mc & chain & E & X). injection E as <-. destruct X as [_ X]; [discriminate|repeat constructor; cbn; lia|]. destruct (X ltac:(discriminate)) as (d & B & F).
  change (given draw_kv "--n-cl-bar-plot") with "b.png" in F. rewrite F. destruct B as (lo & hi & ticks & _ & _ & _ & _ & _ & ->). reflexivity.
Qed.
