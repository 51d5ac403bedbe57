(** * The program that draws plots (executables/plot_mcmc.cc).

    A plot is the vectors handed to the plotting library (Plots.v) and
    [matplot::save] writes the file [render] makes of them.  Simplifications: as in
    Launch.v; numbers are reals, the cast of a count to [int] is truncation towards
    zero (values out of the range of [int] are not considered).  Functions only. *)
From Coq Require Import String Ascii.
From Coq Require Import List Bool Arith ZArith Reals.
From Verif Require Import Base Args Main Launch Plots.
Import ListNotations.
Local Open Scope string_scope.

(* argparse.h:858-884, plot_mcmc.cc:12-44 *)
Definition plot_options : list argument :=
  [ flag ["-h"; "--help"];
    flag ["-v"; "--version"];
    optional "--grid-file";
    optional "--dens-file";
    optional "--n-cl-file";
    optional "--dens-plot";
    optional "--n-cl-trace-plot";
    optional "--n-cl-bar-plot" ].

(* Eigen::MatrixXd: number of columns and the rows *)
Record rmat : Type := mkMat { m_cols : nat; m_rows : list (list R) }.
Definition m_col (m : rmat) (j : nat) : list R := map (fun r => nth j r 0%R) (m_rows m).
(* [data()]: column after column *)
Definition m_data (m : rmat) : list R := flat_map (m_col m) (seq 0 (m_cols m)).

Inductive drawing : Type :=
| Trace (iters : list nat) (values : list R)
| Bars (ticks : list Z) (heights : list R)
| Line (xs ys : list R)
| Contour (xs ys zs : list (list R)).

(* plot_utils.cc:72-78 *)
Definition plot_trace (m : rmat) : drawing := Trace (seq 1 (length (m_data m))) (m_data m).

(* static_cast<int> of a double *)
Definition cast_int (x : R) : Z := if Rle_dec 0 x then Int_part x else (- Int_part (- x))%Z.

(* plot_utils.cc:90-110 *)
Definition plot_bars (m : rmat) : res drawing :=
  '(t, h) <- num_clus_bar (m_cols m) (map cast_int (m_col m 0)) ;; Ok (Bars t h).

Definition Reqb (x y : R) : bool := if Req_EM_T x y then true else false.

(* plot_mcmc.cc:86-115, plot_utils.cc:35-59 *)
Definition plot_dens (grid dens : rmat) : res (option drawing) :=
  d <- plot_density (m_cols grid) (length (m_rows grid)) (m_cols dens) (m_rows dens) ;;
  match d with
  | None => Ok None
  | Some v =>
      if (m_cols grid =? 1)%nat then Ok (Some (Line (m_data grid) v))
      else '(x, y, z) <- to_mesh R Reqb 0%R (combine (m_col grid 0) (m_col grid 1)) v ;;
           Ok (Some (Contour x y z))
  end.

Section PlotProgram.
  Variable writable : string -> bool.
  Variable read_text : string -> res rmat.        (* read_eigen_matrix *)
  Variable render : drawing -> string.            (* matplot::save *)
  Local Notation check := (check_file_is_writeable writable).
  Local Notation read := (read_matrix rmat read_text).
  Local Notation write := (write_file writable).

  (* plot_mcmc.cc:60-65 *)
  Definition do_trace (fn ft : string) : prog unit :=
    if negb (fn =? EMPTYSTR) && negb (ft =? EMPTYSTR) then
      check ft ;;; m <~ read fn ;; write ft (render (plot_trace m))
    else ret tt.
  (* plot_mcmc.cc:67-72 *)
  Definition do_bars (fn fb : string) : prog unit :=
    if negb (fn =? EMPTYSTR) && negb (fb =? EMPTYSTR) then
      check fb ;;; m <~ read fn ;; d <~ lift (plot_bars m) ;; write fb (render d)
    else ret tt.
  (* plot_mcmc.cc:79-115 *)
  Definition do_dens (fg fd fp : string) : prog unit :=
    if negb (fg =? EMPTYSTR) && negb (fd =? EMPTYSTR) && negb (fp =? EMPTYSTR) then
      check fp ;;; grid <~ read fg ;; dens <~ read fd ;;
      d <~ lift (plot_dens grid dens) ;;
      match d with Some d => write fp (render d) | None => ret tt end
    else ret tt.

  (* plot_mcmc.cc:55-117 *)
  Definition plot_body (st : list argument) : prog unit :=
    fn <~ lift (get st "--n-cl-file") ;;
    ft <~ lift (get st "--n-cl-trace-plot") ;;
    fb <~ lift (get st "--n-cl-bar-plot") ;;
    do_trace fn ft ;;;
    do_bars fn fb ;;;
    fg <~ lift (get st "--grid-file") ;;
    fd <~ lift (get st "--dens-file") ;;
    fp <~ lift (get st "--dens-plot") ;;
    do_dens fg fd fp.

  (* plot_mcmc.cc:9-119; [words] follow the name of the program; only the
     std::runtime_error of the parser is caught (47-53) *)
  Definition plot_program (words : list string) (fs : files) : files * ended :=
    match parse_args plot_options words with
    | Invalid => (fs, Exited 1)
    | ExitOk => (fs, Exited 0)
    | Parsed st =>
        match plot_body st fs with
        | (fs', Ok _) => (fs', Exited 0)
        | (fs', _) => (fs', Terminated)
        end
    end.
End PlotProgram.
