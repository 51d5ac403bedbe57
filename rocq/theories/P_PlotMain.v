(** * Properties of the plotting program (C126). *)
From Coq Require Import String Ascii.
From Coq Require Import List Bool Arith ZArith Reals Lia Lra.
From Verif Require Import Base Args ArgsFacts Main Launch LaunchFacts LaunchMore Plots PlotFacts PlotMain PlotMainFacts.
Import ListNotations.
Local Open Scope string_scope.

(** ** What the plots should show *)
(* a value against its place in the chain, from 1 *)
Definition trace_of (vals : list R) (d : drawing) : Prop :=
  exists its, d = Trace its vals /\ length its = length vals /\ forall i, i < length its -> nth i its 0 = i + 1.
(* every whole number between the least and the largest count with its relative frequency *)
Definition bars_of (counts : list Z) (d : drawing) : Prop :=
  exists lo hi ticks, In lo counts /\ In hi counts /\ (forall v, In v counts -> lo <= v <= hi)%Z /\
    (forall t, In t ticks <-> (lo <= t <= hi)%Z) /\ NoDup ticks /\
    d = Bars ticks (map (fun t => (INR (count_occ Z.eq_dec counts t) / INR (length counts))%R) ticks).
(* the average of the densities whose logarithms are the rows of [logs] *)
Definition mean_density (logs : list (list R)) (j : nat) : R := average (map (fun r => exp (nth j r 0%R)) logs).
(* a curve through the points of a grid of dimension one *)
Definition line_of (grid logs : list (list R)) (d : drawing) : Prop :=
  d = Line (map (fun r => nth 0 r 0%R) grid) (map (mean_density logs) (seq 0 (length grid))).
(* a square mesh of the points of a grid of dimension two with the logarithm of the density *)
Definition contour_of (grid logs : list (list R)) (d : drawing) : Prop :=
  exists k xg yg zg, d = Contour xg yg zg /\ length grid = k * k /\ PlotFacts.shape xg k k /\ PlotFacts.shape yg k k /\ PlotFacts.shape zg k k /\
    forall i j, i < k -> j < k -> exists r z, nth_error grid (i * k + j) = Some r /\
      cell xg i j = Some (nth 0 r 0%R) /\ cell yg i j = Some (nth 1 r 0%R) /\ cell zg i j = Some z /\
      exp z = mean_density logs (i * k + j).

(** ** The drawings *)
Lemma one_col : forall m, m_cols m = 1 -> m_data m = m_col m 0.
Proof. intros m H. unfold m_data. rewrite H. cbn. apply app_nil_r. Qed.

Lemma trace_is : forall m, trace_of (m_data m) (plot_trace m).
Proof.
  intro m. exists (seq 1 (length (m_data m))). rewrite seq_length. repeat split. intros i Hi. rewrite seq_nth by exact Hi. lia.
Qed.

Lemma bars_is : forall m d, plot_bars m = Ok d -> m_cols m = 1 /\ bars_of (map cast_int (m_col m 0)) d.
Proof.
  intros m d H. unfold plot_bars in H.
  assert (C : m_cols m = 1).
  { destruct (m_cols m) as [|[|c]] eqn:E; [discriminate H|reflexivity|].
    rewrite (bar_wide (S (S c)) (map cast_int (m_col m 0))) in H by lia. discriminate H. }
  split; [exact C|]. rewrite C in H. set (col := map cast_int (m_col m 0)) in *. 
  assert (N : col <> []) by (intros ->; discriminate H).
  destruct (bar_chart col N) as (lo & hi & Hl & Hh & B & ticks & hs & E & Et & Eh & _). rewrite E in H. cbn [rbind] in H. injection H as <-.
  assert (lo <= hi)%Z by (apply (B lo); exact Hl).
  exists lo, hi, ticks. split; [exact Hl|]. split; [exact Hh|]. split; [exact B|]. split; [|split].
  - intro t. rewrite Et, in_map_iff. split.
    + intros (k & <- & Ik). apply in_seq in Ik. lia.
    + intro Ht. exists (Z.to_nat (t - lo)). split; [lia|]. apply in_seq. lia.
  - rewrite Et. apply FinFun.Injective_map_NoDup; [|apply seq_NoDup]. intros a b Hab. lia.
  - now rewrite Eh.
Qed.
Lemma bars_done : forall m, m_cols m = 1 -> m_rows m <> [] -> exists d, plot_bars m = Ok d.
Proof.
  intros m C N. unfold plot_bars. rewrite C.
  destruct (bar_chart (map cast_int (m_col m 0))) as (lo & hi & _ & _ & _ & t & h & E & _).
  - unfold m_col. destruct (m_rows m); [contradiction|discriminate].
  - rewrite E. cbn [rbind]. eauto.
Qed.

Lemma Reqb_iff : forall x y, Reqb x y = true <-> x = y.
Proof. intros x y. unfold Reqb. destruct (Req_EM_T x y); split; auto; discriminate. Qed.

Lemma constant_or_leads : forall grid : list (R * R), grid <> [] ->
  (forall p q, In p grid -> In q grid -> fst p = fst q) \/ exists k, leads R grid k.
Proof.
  intros [|p0 l] N; [contradiction|]. clear N.
  assert (G : forall (l : list (R * R)) (n : nat), (forall p, In p l -> fst p = fst p0) \/
    exists k q, nth_error l k = Some q /\ fst q <> fst p0 /\ forall i p, i < k -> nth_error l i = Some p -> fst p = fst p0).
  { clear l. intros l _. induction l as [|q l IH]; [left; intros p []|]. destruct (Req_EM_T (fst q) (fst p0)) as [E|E].
    - destruct IH as [IH|(k & r & A & B & C)].
      + left. intros p [<-|I]; auto.
      + right. exists (S k), r. split; [exact A|]. split; [exact B|]. intros [|i] p Hi Hp; cbn in Hp.
        * now injection Hp as <-.
        * apply (C i p); [lia|exact Hp].
    - right. exists 0, q. split; [reflexivity|]. split; [exact E|]. intros i p Hi. lia. }
  destruct (G l 0) as [H|(k & q & A & B & C)].
  - left. intros p r [<-|Ip] [<-|Ir]; trivial; [symmetry; auto|auto|]. now rewrite (H p Ip), (H r Ir).
  - right. exists (S k), p0, q. repeat split; trivial. intros [|i] p Hi Hp; cbn in Hp; [now injection Hp as <-|].
    apply (C i p); [lia|exact Hp].
Qed.

Lemma pair_nth : forall (rows : list (list R)) i,
  nth_error (combine (map (fun r => nth 0 r 0%R) rows) (map (fun r => nth 1 r 0%R) rows)) i =
  option_map (fun r => (nth 0 r 0%R, nth 1 r 0%R)) (nth_error rows i).
Proof. induction rows as [|r rows IH]; intros [|i]; cbn; trivial. Qed.

Lemma dens_is : forall g d o, plot_dens g d = Ok o -> length (m_rows g) = m_cols d /\
  match o with
  | None => m_cols g <> 1 /\ m_cols g <> 2
  | Some dr => m_cols g = 1 /\ (m_rows d <> [] -> line_of (m_rows g) (m_rows d) dr) \/
               m_cols g = 2 /\ (m_rows d <> [] -> contour_of (m_rows g) (m_rows d) dr)
  end.
Proof.
  intros g d o H. unfold plot_dens in H.
  destruct (Nat.eq_dec (length (m_rows g)) (m_cols d)) as [E|E].
  2:{ destruct (proj2 (density_throws (m_cols g) (length (m_rows g)) (m_cols d) (m_rows d)) E) as (e & Q). rewrite Q in H. discriminate H. }
  split; [exact E|].
  destruct (Nat.eq_dec (m_cols g) 1) as [C|C]; [|destruct (Nat.eq_dec (m_cols g) 2) as [D|D]].
  - rewrite C in H. assert (Q : exists v, plot_density 1 (length (m_rows g)) (m_cols d) (m_rows d) = Ok (Some v)).
    { unfold plot_density. rewrite E, Nat.eqb_refl. cbn. eauto. }
    destruct Q as (v & Q). rewrite Q in H. cbn [rbind Nat.eqb] in H. injection H as <-. left. split; [exact C|].
    intro N. unfold line_of. rewrite (one_col g C). f_equal. rewrite E in Q |- *. rewrite (density_line _ _ N) in Q. now injection Q as <-.
  - rewrite D, E in H. assert (L : exists zs, plot_density 2 (m_cols d) (m_cols d) (m_rows d) = Ok (Some zs)).
    { unfold plot_density. rewrite Nat.eqb_refl. cbn. eauto. }
    destruct L as (zs & L). rewrite L in H. cbn [rbind Nat.eqb] in H.
    set (pts := combine (m_col g 0) (m_col g 1)) in *.
    destruct (to_mesh R Reqb 0%R pts zs) as [[[xg yg] zg]|s| |] eqn:M; try discriminate H. cbn [rbind] in H. injection H as <-.
    right. split; [exact D|]. intro N.
    destruct (density_plane (m_cols d) (m_rows d) N) as (zs' & L' & Lz & Hz). rewrite L' in L. injection L as ->.
    assert (Lp : length pts = length (m_rows g)) by (unfold pts, m_col; rewrite combine_length, !map_length; apply Nat.min_id).
    assert (Np : pts <> []) by (intro Q; rewrite Q in M; discriminate M).
    destruct (constant_or_leads pts Np) as [K|(k & K)].
    { rewrite (mesh_constant R Reqb Reqb_iff 0%R pts zs K) in M. discriminate M. }
    destruct (Nat.eq_dec (length pts mod k) 0) as [Z|Z].
    2:{ rewrite (proj2 (mesh_irregular R Reqb Reqb_iff 0%R pts zs k K) Z) in M. discriminate M. }
    destruct (Nat.eq_dec (length pts) (k * k)) as [S|S].
    2:{ rewrite (mesh_overrun R Reqb Reqb_iff 0%R pts zs k K Z) in M by now left. discriminate M. }
    destruct (mesh_square R Reqb Reqb_iff 0%R pts zs k K S) as (xg' & yg' & zg' & M' & Sx & Sy & Sz & F); [lia|].
    rewrite M' in M. injection M as -> -> ->.
    exists k, xg, yg, zg. split; [reflexivity|]. split; [lia|]. split; [exact Sx|]. split; [exact Sy|]. split; [exact Sz|].
    intros i j Hi Hj. destruct (F i j Hi Hj) as (Fx & Fy & Fz).
    assert (B : i * k + j < length (m_rows g)) by nia.
    destruct (nth_error (m_rows g) (i * k + j)) as [r|] eqn:Er; [|apply nth_error_None in Er; lia].
    destruct (Hz (i * k + j)) as (z & Ez & Ee); [lia|].
    exists r, z. split; [reflexivity|]. unfold pts, m_col in Fx, Fy. rewrite pair_nth, Er in Fx, Fy. cbn [option_map fst snd] in Fx, Fy.
    split; [exact Fx|]. split; [exact Fy|]. split; [now rewrite Fz|exact Ee].
  - assert (Q : plot_density (m_cols g) (length (m_rows g)) (m_cols d) (m_rows d) = Ok None) by (apply density_skipped; auto).
    rewrite Q in H. cbn [rbind] in H. injection H as <-. auto.
Qed.
Lemma dens_done : forall g d, length (m_rows g) = m_cols d -> m_cols g <> 2 -> exists o, plot_dens g d = Ok o.
Proof.
  intros g d E C. unfold plot_dens. destruct (Nat.eq_dec (m_cols g) 1) as [D|D].
  - rewrite D. unfold plot_density. rewrite E, Nat.eqb_refl. cbn. eauto.
  - rewrite (proj2 (density_skipped (m_cols g) _ _ _) (Logic.conj E (Logic.conj D C))). cbn. eauto.
Qed.

(* a grid of dimension two that is as long as wide *)
Definition square_grid (g : rmat) : Prop := m_cols g = 2 /\ exists xs ys : list R, NoDup xs /\ 2 <= length xs /\ length xs = length ys /\
  m_rows g = map (fun p => [fst p; snd p]) (list_prod xs ys).
Lemma dens_square : forall g d, length (m_rows g) = m_cols d -> square_grid g -> exists o, plot_dens g d = Ok o.
Proof.
  intros g d E (C & xs & ys & ND & L2 & L & G). unfold plot_dens. rewrite C.
  assert (Q : exists zs, plot_density 2 (length (m_rows g)) (m_cols d) (m_rows d) = Ok (Some zs) /\ length zs = m_cols d).
  { unfold plot_density. rewrite E, Nat.eqb_refl. cbn. eexists. split; [reflexivity|]. now rewrite !map_length, seq_length. }
  destruct Q as (zs & -> & Lz). cbn [rbind Nat.eqb].
  assert (P : combine (m_col g 0) (m_col g 1) = list_prod xs ys).
  { unfold m_col. rewrite G, !map_map. generalize (list_prod xs ys). intro l. induction l as [|[a b] l IH]; cbn; [reflexivity|]. f_equal. exact IH. }
  assert (Q : length zs = length xs * length ys) by (rewrite Lz, <- E, G, map_length; apply prod_length).
  rewrite P. destruct (proj2 (mesh_product R Reqb Reqb_iff 0%R xs ys zs ND Q) (Logic.conj L L2)) as ([[x y] z] & M).
  rewrite M. cbn. eauto.
Qed.

(** ** The program *)
(* the plots asked for together with their data *)
Definition asked (kv : list (string * string)) : list string :=
  wanted (given kv "--n-cl-file") (given kv "--n-cl-trace-plot") (given kv "--n-cl-bar-plot")
    (given kv "--grid-file") (given kv "--dens-file") (given kv "--dens-plot").
(* no plot has the name of another or of an input *)
Definition apart_plots (kv : list (string * string)) : Prop :=
  NoDup (asked kv) /\ forall n, In n ["--n-cl-file"; "--grid-file"; "--dens-file"] -> ~ In (given kv n) (asked kv).

Theorem C126_pairs : forall kv, plot_pairs kv -> exists st, parse_args plot_options (flat kv) = Parsed st /\
  (forall n v, In (n, v) kv -> get st n = Ok v) /\
  (forall n, In n plot_names -> ~ In n (map fst kv) -> get st n = Ok EMPTYSTR).
Proof.
  intros kv H. destruct (plot_parse kv H) as (st & P & G). exists st. split; [exact P|]. destruct H as (ND & I & _). split.
  - intros n v Hn. rewrite (G n) by (apply I; change n with (fst (n, v)); now apply in_map). f_equal. unfold given.
    destruct (find (fun p => n =? fst p) kv) as [[n' v']|] eqn:Fd.
    + apply find_some in Fd as [I' E]. cbn in E. apply String.eqb_eq in E. subst n'. cbn.
      clear -ND Hn I'. induction kv as [|p kv IH]; [contradiction|]. cbn in ND. apply NoDup_cons_iff in ND as [N1 N2].
      destruct Hn as [->|Hn], I' as [E|I']; [congruence| | |auto].
      * elim N1. exact (in_map fst _ _ I').
      * subst p. elim N1. exact (in_map fst _ _ Hn).
    + pose proof (find_none _ _ Fd _ Hn) as Q. cbn in Q. rewrite String.eqb_refl in Q. discriminate.
  - intros n Hn F. rewrite (G n Hn). f_equal. unfold given. destruct (find _ kv) as [p|] eqn:Fd; trivial.
    apply find_some in Fd as [I' E]. apply String.eqb_eq in E. elim F. rewrite E. now apply in_map.
Qed.
Print Assumptions C126_pairs.

Section Program.
  Variable writable : string -> bool.
  Variable read_text : string -> res rmat.
  Variable render : drawing -> string.
  Notation main := (plot_program writable read_text render).
  Notation holds := (holds rmat read_text).

  Lemma holds_put : forall fs f c g m, f <> g -> (holds (put fs f c) g m <-> holds fs g m).
  Proof. intros fs f c g m N. unfold LaunchMore.holds. now rewrite put_other by auto. Qed.

  Lemma run_pairs : forall kv fs, plot_pairs kv -> exists r,
    (do_trace writable read_text render (given kv "--n-cl-file") (given kv "--n-cl-trace-plot") ;;;
     do_bars writable read_text render (given kv "--n-cl-file") (given kv "--n-cl-bar-plot") ;;;
     do_dens writable read_text render (given kv "--grid-file") (given kv "--dens-file") (given kv "--dens-plot")) fs = r /\
    main (flat kv) fs = (fst r, match snd r with Ok _ => Exited 0 | _ => Terminated end).
  Proof.
    intros kv fs H. destruct (plot_parse kv H) as (st & P & G). eexists. split; [reflexivity|].
    unfold plot_program. rewrite P. unfold plot_body, bind, lift.
    rewrite !G by (unfold plot_names; cbn; tauto).
    destruct (do_trace _ _ _ _ _ fs) as [f1 [?|?| |]]; try reflexivity.
    destruct (do_bars _ _ _ _ _ f1) as [f2 [?|?| |]]; try reflexivity.
    destruct (do_dens _ _ _ _ _ _ f2) as [f3 [?|?| |]]; reflexivity.
  Qed.

  (** A run that ends well has drawn the plots that were asked for together with
      their data, from the inputs as they were at the start; a density on a grid of
      another dimension leaves an empty file. *)
  Theorem C126_outputs : forall kv fs fs', plot_pairs kv -> apart_plots kv -> main (flat kv) fs = (fs', Exited 0) ->
    let v := given kv in
    (v "--n-cl-file" <> EMPTYSTR -> v "--n-cl-trace-plot" <> EMPTYSTR -> exists m d,
       holds fs (v "--n-cl-file") m /\ fs' (v "--n-cl-trace-plot") = Some (render d) /\
       trace_of (m_data m) d /\ (m_cols m = 1 -> trace_of (m_col m 0) d)) /\
    (v "--n-cl-file" <> EMPTYSTR -> v "--n-cl-bar-plot" <> EMPTYSTR -> exists m d,
       holds fs (v "--n-cl-file") m /\ m_cols m = 1 /\ fs' (v "--n-cl-bar-plot") = Some (render d) /\
       bars_of (map cast_int (m_col m 0)) d) /\
    (v "--grid-file" <> EMPTYSTR -> v "--dens-file" <> EMPTYSTR -> v "--dens-plot" <> EMPTYSTR -> exists g l,
       holds fs (v "--grid-file") g /\ holds fs (v "--dens-file") l /\ length (m_rows g) = m_cols l /\
       (m_cols g = 1 -> m_rows l <> [] -> exists d, line_of (m_rows g) (m_rows l) d /\ fs' (v "--dens-plot") = Some (render d)) /\
       (m_cols g = 2 -> m_rows l <> [] -> exists d, contour_of (m_rows g) (m_rows l) d /\ fs' (v "--dens-plot") = Some (render d)) /\
       (m_cols g <> 1 -> m_cols g <> 2 -> fs' (v "--dens-plot") = Some "")).
  Proof.
    intros kv fs fs' HP [ND HA] H v. destruct (run_pairs kv fs HP) as (r & R & M). rewrite M in H. clear M.
    destruct r as [f3 o]. cbn in H. destruct o as [x|?| |]; try discriminate H. injection H as <-.
    apply bind_Ok in R as (f1 & u1 & R1 & R). apply bind_Ok in R as (f2 & u2 & R2 & R3).
    apply trace_Ok in R1. apply bars_Ok in R2. apply dens_Ok in R3.
    unfold asked, wanted in ND, HA. fold v in ND, HA, R1, R2, R3.
    pose proof (HA "--n-cl-file" (or_introl eq_refl)) as A1. pose proof (HA "--grid-file" (or_intror (or_introl eq_refl))) as A2.
    pose proof (HA "--dens-file" (or_intror (or_intror (or_introl eq_refl)))) as A3. clear HA. fold v in A1, A2, A3.
    set (fn := v "--n-cl-file") in *. set (ft := v "--n-cl-trace-plot") in *. set (fb := v "--n-cl-bar-plot") in *.
    set (fg := v "--grid-file") in *. set (fd := v "--dens-file") in *. set (fp := v "--dens-plot") in *. clearbody fn ft fb fg fd fp.
    (* the conditions of the three plots *)
    set (cT := negb (fn =? EMPTYSTR) && negb (ft =? EMPTYSTR)) in *. set (cB := negb (fn =? EMPTYSTR) && negb (fb =? EMPTYSTR)) in *.
    set (cD := negb (fg =? EMPTYSTR) && negb (fd =? EMPTYSTR) && negb (fp =? EMPTYSTR)) in *.
    assert (E1 : (if cT then True else False) <-> fn <> EMPTYSTR /\ ft <> EMPTYSTR).
    { unfold cT. rewrite <- !String.eqb_neq. destruct (fn =? EMPTYSTR), (ft =? EMPTYSTR); cbn; intuition congruence. }
    assert (E2 : (if cB then True else False) <-> fn <> EMPTYSTR /\ fb <> EMPTYSTR).
    { unfold cB. rewrite <- !String.eqb_neq. destruct (fn =? EMPTYSTR), (fb =? EMPTYSTR); cbn; intuition congruence. }
    assert (E3 : (if cD then True else False) <-> fg <> EMPTYSTR /\ fd <> EMPTYSTR /\ fp <> EMPTYSTR).
    { unfold cD. rewrite <- !String.eqb_neq. destruct (fg =? EMPTYSTR), (fd =? EMPTYSTR), (fp =? EMPTYSTR); cbn; intuition congruence. }
    clearbody cT cB cD.
    (* each stage *)
    assert (S1 : forall g, ~ (cT = true /\ g = ft) -> f1 g = fs g).
    { intros g Ng. destruct R1 as [[_ ->]|(N1 & N2 & m & _ & ->)]; trivial.
      assert (ft <> g) by (intros <-; apply Ng; split; trivial; destruct cT; trivial; tauto). now rewrite !put_other by auto. }
    assert (S2 : forall g, ~ (cB = true /\ g = fb) -> f2 g = f1 g).
    { intros g Ng. destruct R2 as [[_ ->]|(N1 & N2 & m & d & _ & _ & ->)]; trivial.
      assert (fb <> g) by (intros <-; apply Ng; split; trivial; destruct cB; trivial; tauto). now rewrite !put_other by auto. }
    assert (S3 : forall g, ~ (cD = true /\ g = fp) -> f3 g = f2 g).
    { intros g Ng. destruct R3 as [[_ ->]|(N1 & N2 & N3 & m & d & o & _ & _ & _ & ->)]; trivial.
      assert (fp <> g) by (intros <-; apply Ng; split; trivial; destruct cD; trivial; tauto).
      destruct o; now rewrite !put_other by auto. }
    split; [|split].
    - intros Nn Nt. assert (cT = true) as -> by (destruct cT; trivial; tauto).
      destruct R1 as [[[?|?] _]|(_ & _ & m & Hm & ->)]; try contradiction.
      exists m, (plot_trace m). 
      assert (fn <> ft) by (intros ->; apply A1; now left).
      split; [now apply (holds_put fs ft "" fn m); auto|]. split; [|split; [apply trace_is|intro C; rewrite <- (one_col m C); apply trace_is]].
      rewrite S3, S2, put_same; trivial.
      + intros [-> ->]. cbn in ND. apply NoDup_cons_iff in ND as [Q _]. apply Q. now left.
      + intros [-> ->]. cbn in ND. apply NoDup_cons_iff in ND as [Q _]. apply Q. destruct cB; cbn; tauto.
    - intros Nn Nb. assert (cB = true) as -> by (destruct cB; trivial; tauto).
      destruct R2 as [[[?|?] _]|(_ & _ & m & d & Hm & Hd & ->)]; try contradiction.
      destruct (bars_is m d Hd) as [C B]. exists m, d.
      assert (fn <> fb) by (intros ->; apply A1; destruct cT; cbn; tauto).
      apply (holds_put f1 fb "" fn m) in Hm; [|auto]. split.
      { destruct Hm as (c & Hc & Rc). exists c. split; [|exact Rc]. rewrite <- Hc. symmetry. apply S1.
        intros [-> ->]. apply A1. now left. }
      split; [exact C|]. split; [|exact B]. rewrite S3, put_same; trivial.
      intros [-> ->]. destruct cT; cbn in ND; [apply NoDup_cons_iff in ND as [_ ND]|]; apply NoDup_cons_iff in ND as [Q _]; apply Q; now left.
    - intros Ng Nd Np. assert (cD = true) as -> by (destruct cD; trivial; tauto).
      destruct R3 as [[[?|[?|?]] _]|(_ & _ & _ & g & l & o & Hg & Hl & Ho & E)]; try contradiction.
      destruct (dens_is g l o Ho) as [L D]. exists g, l.
      assert (fg <> fp) by (intros ->; apply A2; destruct cT, cB; cbn; tauto).
      assert (fd <> fp) by (intros ->; apply A3; destruct cT, cB; cbn; tauto).
      apply (holds_put f2 fp "") in Hg; [|auto]. apply (holds_put f2 fp "") in Hl; [|auto].
      assert (B : forall f m, holds f2 f m -> ~ In f ((if cT then [ft] else []) ++ (if cB then [fb] else []) ++ [fp]) -> holds fs f m).
      { intros f m (c & Hc & Rc) Nf. exists c. split; [|exact Rc]. rewrite <- Hc. rewrite S2, S1; trivial.
        - intros [-> ->]. apply Nf. now left.
        - intros [-> ->]. apply Nf. destruct cT; cbn; tauto. }
      split; [now apply B|]. split; [now apply B|]. split; [exact L|].
      destruct o as [d|].
      + destruct D as [[C D]|[C D]]; (split; [|split]); try congruence; intros; exists d; (split; [auto|]); now rewrite E, put_same.
      + destruct D as [D1 D2]. split; [contradiction|]. split; [contradiction|]. intros _ _. now rewrite E, put_same.
  Qed.

  (** However the run ends, no other file changes: a plot that is not asked for
      together with its data is not even emptied. *)
  Theorem C126_other_files : forall words fs g,
    (forall st n, parse_args plot_options words = Parsed st -> In n ["--n-cl-trace-plot"; "--n-cl-bar-plot"; "--dens-plot"] -> get st n <> Ok g) ->
    fst (main words fs) g = fs g.
  Proof.
    intros words fs g H. apply plot_frame. intros st fn ft fb fg fd fp P _ E2 E3 _ _ E6 I. unfold wanted in I.
    apply in_app_or in I as [I|I]; [|apply in_app_or in I as [I|I]].
    - destruct (_ && _); [|contradiction]. destruct I as [->|[]]. apply (H st "--n-cl-trace-plot" P); [cbn; tauto|exact E2].
    - destruct (_ && _); [|contradiction]. destruct I as [->|[]]. apply (H st "--n-cl-bar-plot" P); [cbn; tauto|exact E3].
    - destruct (_ && _ && _); [|contradiction]. destruct I as [->|[]]. apply (H st "--dens-plot" P); [cbn; tauto|exact E6].
  Qed.
  Theorem C126_incomplete_requests : forall kv fs g, plot_pairs kv -> ~ In g (asked kv) -> fst (main (flat kv) fs) g = fs g.
  Proof.
    intros kv fs g HP N. apply plot_frame. intros st fn ft fb fg fd fp P E1 E2 E3 E4 E5 E6.
    destruct (plot_parse kv HP) as (st' & P' & G). rewrite P' in P. injection P as ->.
    rewrite G in E1, E2, E3, E4, E5, E6 by (unfold plot_names; cbn; tauto).
    injection E1 as <-. injection E2 as <-. injection E3 as <-. injection E4 as <-. injection E5 as <-. injection E6 as <-. exact N.
  Qed.

  (** Refused arguments change nothing. *)
  Theorem C126_refused : forall words fs, parse_args plot_options words = Invalid -> main words fs = (fs, Exited 1).
  Proof. intros words fs H. unfold plot_program. now rewrite H. Qed.

  Lemma trace_writable : forall fn ft fs fs' x, do_trace writable read_text render fn ft fs = (fs', Ok x) ->
    negb (fn =? EMPTYSTR) && negb (ft =? EMPTYSTR) = true -> writable ft = true.
  Proof.
    intros fn ft fs fs' x H C. unfold do_trace in H. rewrite C in H. apply bind_Ok in H as (f1 & u & H1 & _).
    unfold check_file_is_writeable in H1. destruct (writable ft); [reflexivity|discriminate H1].
  Qed.
  Lemma bars_writable : forall fn ft fs fs' x, do_bars writable read_text render fn ft fs = (fs', Ok x) ->
    negb (fn =? EMPTYSTR) && negb (ft =? EMPTYSTR) = true -> writable ft = true.
  Proof.
    intros fn ft fs fs' x H C. unfold do_bars in H. rewrite C in H. apply bind_Ok in H as (f1 & u & H1 & _).
    unfold check_file_is_writeable in H1. destruct (writable ft); [reflexivity|discriminate H1].
  Qed.
  Lemma dens_writable : forall fg fd fp fs fs' x, do_dens writable read_text render fg fd fp fs = (fs', Ok x) ->
    negb (fg =? EMPTYSTR) && negb (fd =? EMPTYSTR) && negb (fp =? EMPTYSTR) = true -> writable fp = true.
  Proof.
    intros fg fd fp fs fs' x H C. unfold do_dens in H. rewrite C in H. apply bind_Ok in H as (f1 & u & H1 & _).
    unfold check_file_is_writeable in H1. destruct (writable fp); [reflexivity|discriminate H1].
  Qed.

  (** A plot that cannot be written ends the program. *)
  Theorem C126_unwritable : forall kv fs f, plot_pairs kv -> In f (asked kv) -> writable f = false ->
    snd (main (flat kv) fs) = Terminated.
  Proof.
    intros kv fs f HP I W. destruct (run_pairs kv fs HP) as (r & R & ->). destruct r as [f3 o]. cbn [snd].
    destruct o as [x|?| |]; trivial. exfalso.
    apply bind_Ok in R as (f1 & u1 & R1 & R). apply bind_Ok in R as (f2 & u2 & R2 & R3).
    unfold asked, wanted in I.
    apply in_app_or in I as [I|I]; [|apply in_app_or in I as [I|I]].
    - destruct (_ && _) eqn:C in I; [|contradiction]. destruct I as [<-|[]]. rewrite (trace_writable _ _ _ _ _ R1 C) in W. discriminate.
    - destruct (_ && _) eqn:C in I; [|contradiction]. destruct I as [<-|[]]. rewrite (bars_writable _ _ _ _ _ R2 C) in W. discriminate.
    - destruct (_ && _) eqn:C in I; [|contradiction]. destruct I as [<-|[]]. rewrite (dens_writable _ _ _ _ _ _ R3 C) in W. discriminate.
  Qed.

  (** Counts in one column and a density on a line, on a square grid or in other
      dimensions are drawn without an error. *)
  Theorem C126_completes : forall kv fs, plot_pairs kv -> apart_plots kv -> (forall f, In f (asked kv) -> writable f = true) ->
    let v := given kv in
    (v "--n-cl-file" <> EMPTYSTR -> v "--n-cl-trace-plot" <> EMPTYSTR \/ v "--n-cl-bar-plot" <> EMPTYSTR ->
       exists m, holds fs (v "--n-cl-file") m /\ (v "--n-cl-bar-plot" <> EMPTYSTR -> m_cols m = 1 /\ m_rows m <> [])) ->
    (v "--grid-file" <> EMPTYSTR -> v "--dens-file" <> EMPTYSTR -> v "--dens-plot" <> EMPTYSTR ->
       exists g l, holds fs (v "--grid-file") g /\ holds fs (v "--dens-file") l /\ length (m_rows g) = m_cols l /\
         (m_cols g = 2 -> square_grid g)) ->
    snd (main (flat kv) fs) = Exited 0.
  Proof.
    intros kv fs HP [ND HA] HW v HN HD. destruct (run_pairs kv fs HP) as (r & R & ->).
    pose proof (HA "--n-cl-file" (or_introl eq_refl)) as A1. pose proof (HA "--grid-file" (or_intror (or_introl eq_refl))) as A2.
    pose proof (HA "--dens-file" (or_intror (or_intror (or_introl eq_refl)))) as A3. clear HA.
    unfold asked in *. fold v in A1, A2, A3, HW, ND, R.
    set (fn := v "--n-cl-file") in *. set (ft := v "--n-cl-trace-plot") in *. set (fb := v "--n-cl-bar-plot") in *.
    set (fg := v "--grid-file") in *. set (fd := v "--dens-file") in *. set (fp := v "--dens-plot") in *. clearbody fn ft fb fg fd fp.
    set (ask := wanted fn ft fb fg fd fp) in *.
    (* each stage ends well on files that agree with the first ones away from the plots *)
    assert (T : forall f, (forall x, ~ In x ask -> f x = fs x) -> exists f', do_trace writable read_text render fn ft f = (f', Ok tt) /\ forall x, ~ In x ask -> f' x = fs x).
    { intros f Hf. unfold do_trace. destruct (negb (fn =? EMPTYSTR) && negb (ft =? EMPTYSTR)) eqn:C; [|exists f; split; [reflexivity|exact Hf]].
      assert (I : In ft ask) by (unfold ask, wanted; rewrite C; now left). apply andb_true_iff in C as [C1 C2]. apply negb_true_iff, String.eqb_neq in C1, C2.
      destruct HN as (m & (c & Hc & Rc) & _); [exact C1|now left|].
      unfold bind, check_file_is_writeable, read_matrix, write_file. rewrite (HW ft I).
      assert (ft <> fn) by (intros <-; contradiction). rewrite put_other, (Hf fn A1), Hc, Rc by auto.
      eexists. split; [reflexivity|]. intros x Nx. assert (ft <> x) by (intros <-; contradiction). now rewrite !put_other by auto; apply Hf. }
    assert (B : forall f, (forall x, ~ In x ask -> f x = fs x) -> exists f', do_bars writable read_text render fn fb f = (f', Ok tt) /\ forall x, ~ In x ask -> f' x = fs x).
    { intros f Hf. unfold do_bars. destruct (negb (fn =? EMPTYSTR) && negb (fb =? EMPTYSTR)) eqn:C; [|exists f; split; [reflexivity|exact Hf]].
      assert (I : In fb ask) by (unfold ask, wanted; rewrite C; apply in_or_app; right; now left). apply andb_true_iff in C as [C1 C2]. apply negb_true_iff, String.eqb_neq in C1, C2.
      destruct HN as (m & (c & Hc & Rc) & Hm); [exact C1|now right|]. destruct (Hm C2) as [Hm1 Hm2]. destruct (bars_done m Hm1 Hm2) as (d & Hd).
      unfold bind, check_file_is_writeable, read_matrix, write_file, lift. rewrite (HW fb I).
      assert (fb <> fn) by (intros <-; contradiction). rewrite put_other, (Hf fn A1), Hc, Rc, Hd by auto.
      eexists. split; [reflexivity|]. intros x Nx. assert (fb <> x) by (intros <-; contradiction). now rewrite !put_other by auto; apply Hf. }
    assert (D : forall f, (forall x, ~ In x ask -> f x = fs x) -> exists f', do_dens writable read_text render fg fd fp f = (f', Ok tt)).
    { intros f Hf. unfold do_dens. destruct (negb (fg =? EMPTYSTR) && negb (fd =? EMPTYSTR) && negb (fp =? EMPTYSTR)) eqn:C; [|exists f; reflexivity].
      assert (I : In fp ask) by (unfold ask, wanted; rewrite C; apply in_or_app; right; apply in_or_app; right; now left).
      apply andb_true_iff in C as [C C3]. apply andb_true_iff in C as [C1 C2]. apply negb_true_iff, String.eqb_neq in C1, C2, C3.
      destruct HD as (g & l & (c & Hc & Rc) & (c' & Hc' & Rc') & L & Sq); [exact C1|exact C2|exact C3|].
      assert (Q : exists o, plot_dens g l = Ok o).
      { destruct (Nat.eq_dec (m_cols g) 2) as [Y|Y]; [exact (dens_square g l L (Sq Y))|exact (dens_done g l L Y)]. }
      destruct Q as (o & Ho).
      unfold bind, check_file_is_writeable, read_matrix, write_file, lift. rewrite (HW fp I).
      assert (fp <> fg) by (intros <-; contradiction). assert (fp <> fd) by (intros <-; contradiction).
      rewrite put_other, (Hf fg A2), Hc, Rc by auto. rewrite put_other, (Hf fd A3), Hc', Rc', Ho by auto. destruct o; eexists; reflexivity. }
    destruct (T fs) as (f1 & E1 & K1); [auto|]. destruct (B f1 K1) as (f2 & E2 & K2). destruct (D f2 K2) as (f3 & E3).
    unfold bind in R. rewrite E1, E2, E3 in R. now rewrite <- R.
  Qed.
End Program.
Print Assumptions C126_outputs.
Print Assumptions C126_other_files.
Print Assumptions C126_incomplete_requests.
Print Assumptions C126_refused.
Print Assumptions C126_unwritable.
Print Assumptions C126_completes.

(** ** Plots of a run *)
Lemma cast_nat : forall n, cast_int (INR n) = Z.of_nat n.
Proof.
  intro n. unfold cast_int. destruct (Rle_dec 0 (INR n)) as [_|C]; [|elim C; apply pos_INR].
  rewrite INR_IZR_INZ. unfold Int_part. rewrite <- (tech_up (IZR (Z.of_nat n)) (Z.of_nat n + 1)); [lia|rewrite plus_IZR; lra|rewrite plus_IZR; lra].
Qed.

Section AfterRun.
  Variable writable : string -> bool.
  Variables O M : Type.
  Variable read_text : string -> res rmat.
  Variable build : option string -> string -> option string -> string -> option string -> res O.
  Variables hdep mdep : O -> bool.
  Variable n_rows : rmat -> nat.
  Variable sample : O -> rmat -> option rmat -> option rmat -> res (list M).
  Variable encode : list M -> string.
  Variable decode : string -> res (list M).
  Variable left_over : string.
  Variable eval : O -> list M -> rmat -> option rmat -> option rmat -> res rmat.
  Variable show : rmat -> string.
  Variable show_int : list (list nat) -> string.
  Variable allocs : M -> list nat.
  Variable nclus : M -> nat.
  Variable blank : M.
  Variable estimate : list (list nat) -> res (list nat).
  Variable render : drawing -> string.
  Notation run := (main_program writable O M rmat read_text build hdep mdep n_rows sample encode decode
    left_over eval show show_int allocs nclus blank estimate).
  Notation plot := (plot_program writable read_text render).

  (** The bar chart of a run shows how often each number of clusters occurs among the
      states that the sampler saved, the trace plot their numbers of clusters in order. *)
  Theorem C126_after_run : (forall l, decode (encode l) = Ok l) ->
    forall bound, (forall l, l <> [] -> Forall (fun n => Z.of_nat n <= bound)%Z l -> read_text (show_int (map (fun n => [n]) l)) = Ok (mkMat 1 (map (fun n => [INR n]) l))) ->
    forall kv st fs fs1 kv2 fs2, pairs_ok kv -> incl ("--coll-name" :: required_names) (map fst kv) ->
    parse_args run_options (flat kv) = Parsed st -> separate st -> run (flat kv) fs = (fs1, Exited 0) ->
    plot_pairs kv2 -> apart_plots kv2 -> plot (flat kv2) fs1 = (fs2, Exited 0) ->
    get st "--n-cl-file" = Ok (given kv2 "--n-cl-file") -> given kv2 "--n-cl-file" <> EMPTYSTR ->
    exists o data hc mc chain, sample o data hc mc = Ok chain /\ (chain <> [] -> Forall (fun m => Z.of_nat (nclus m) <= bound)%Z chain ->
      (given kv2 "--n-cl-trace-plot" <> EMPTYSTR -> exists d,
         trace_of (map (fun m => INR (nclus m)) chain) d /\ fs2 (given kv2 "--n-cl-trace-plot") = Some (render d)) /\
      (given kv2 "--n-cl-bar-plot" <> EMPTYSTR -> exists d,
         bars_of (map (fun m => Z.of_nat (nclus m)) chain) d /\ fs2 (given kv2 "--n-cl-bar-plot") = Some (render d))).
  Proof.
    intros De bound Rt kv st fs fs1 kv2 fs2 P1 I1 Ps Sep R1 P2 A2 R2 En Nn.
    pose proof (main_success writable O M rmat read_text build hdep mdep n_rows sample encode decode left_over eval show show_int
      allocs nclus blank estimate De _ _ _ _ Ps Sep R1) as W. unfold wrote in W.
    assert (I0 : incl required_names (map fst kv)) by (intros x Hx; apply I1; now right).
    destruct (parse_pairs kv P1 I0) as (st' & Ps' & G & D & _). rewrite Ps' in Ps. injection Ps as ->.
    assert (Q : forall n, In n all_names -> exists v, get st n = Ok v).
    { intros n Hn. destruct (in_dec string_dec n (map fst kv)) as [I|I].
      - apply in_map_iff in I as ([n' v] & E & I). cbn in E. subst n'. exists v. now apply G.
      - exists EMPTYSTR. apply D; trivial. unfold all_names in Hn. apply in_app_or in Hn as [Hn|[<-|Hn]]; trivial.
        + elim I. now apply I0.
        + elim I. apply I1. now left. }
    destruct (Q "--algo-params-file") as (fa & E1); [pick|]. destruct (Q "--hier-type") as (ht & E2); [pick|].
    destruct (Q "--hier-args") as (fh & E3); [pick|]. destruct (Q "--mix-type") as (mt & E4); [pick|].
    destruct (Q "--mix-args") as (fm & E5); [pick|]. destruct (Q "--coll-name") as (co & E6); [pick|].
    destruct (Q "--data-file") as (fd & E7); [pick|]. destruct (Q "--grid-file") as (gr & E8); [pick|].
    destruct (Q "--dens-file") as (d & E9); [pick|]. destruct (Q "--clus-file") as (fc & E10); [pick|].
    destruct (Q "--best-clus-file") as (fb & E11); [pick|].
    destruct (W fa ht fh mt fm co fd gr d (given kv2 "--n-cl-file") fc fb E1 E2 E3 E4 E5 E6 E7 E8 E9 En E10 E11)
      as (o & data & hc & mc & chain & _ & _ & _ & _ & Hs & _ & _ & _ & Hn & _ & _).
    exists o, data, hc, mc, chain. split; [exact Hs|]. intros Nc Bd. specialize (Hn Nn).
    assert (Hm : forall m, holds rmat read_text fs1 (given kv2 "--n-cl-file") m -> m = mkMat 1 (map (fun n => [INR n]) (map nclus chain))).
    { intros m (c & Hc & Rc). rewrite Hn in Hc. injection Hc as <-.
      rewrite <- (map_map nclus (fun n => [n])), Rt in Rc by first [apply Forall_map; exact Bd | destruct chain; [now elim Nc|discriminate]]. now injection Rc as <-. }
    destruct (C126_outputs writable read_text render kv2 fs1 fs2 P2 A2 R2) as (H1 & H2 & _). split.
    - intro Nt. destruct (H1 Nn Nt) as (m & dr & Hh & Hf & _ & Ht). exists dr. split; [|exact Hf].
      rewrite (Hm m Hh) in Ht. specialize (Ht eq_refl). unfold m_col in Ht. cbn [m_rows] in Ht. rewrite !map_map in Ht. exact Ht.
    - intro Nb. destruct (H2 Nn Nb) as (m & dr & Hh & _ & Hf & Hb). exists dr. split; [|exact Hf].
      rewrite (Hm m Hh) in Hb. unfold m_col in Hb. cbn [m_rows] in Hb. rewrite !map_map in Hb. cbn [nth] in Hb.
      rewrite (map_ext (fun m0 => Z.of_nat (nclus m0)) (fun m0 => cast_int (INR (nclus m0)))); [exact Hb|]. intro x. symmetry. apply cast_nat.
  Qed.
End AfterRun.
Print Assumptions C126_after_run.

(** ** Examples and refuted properties *)
Definition toy_reader (s : string) : res rmat :=
  if s =? "n" then Ok (mkMat 1 [[2]; [3]; [2]]%R)
  else if s =? "g1" then Ok (mkMat 1 [[0]; [1]]%R)
  else if s =? "g2" then Ok (mkMat 2 [[0; 5]; [0; 6]; [1; 5]; [1; 6]]%R)
  else if s =? "g3" then Ok (mkMat 3 [[0; 0; 0]; [1; 1; 1]]%R)
  else if s =? "l2" then Ok (mkMat 2 [[0; 1]; [2; 3]]%R)
  else if s =? "l4" then Ok (mkMat 4 [[0; 1; 2; 3]; [0; 1; 2; 3]]%R)
  else Ok (mkMat 0 []).
Definition toy_render (d : drawing) : string :=
  match d with Trace _ _ => "T" | Bars _ _ => "B" | Line _ _ => "L" | Contour _ _ _ => "C" end.
Definition toy_disk : files := fun f =>
  if f =? "ncl" then Some "n" else if f =? "grid" then Some "g1" else if f =? "grid2" then Some "g2"
  else if f =? "grid3" then Some "g3" else if f =? "dens" then Some "l2" else if f =? "dens4" then Some "l4"
  else if f =? "d.png" then Some "old" else None.
Definition toy_writes (f : string) : bool := negb (f =? "").
Notation toy_plot := (plot_program toy_writes toy_reader toy_render).
Definition all_kv (g d : string) : list (string * string) :=
  [("--n-cl-file", "ncl"); ("--dens-plot", "d.png"); ("--n-cl-bar-plot", "b.png"); ("--grid-file", g); ("--dens-file", d); ("--n-cl-trace-plot", "t.png")].

Ltac absent := let C := fresh in intro C; repeat (destruct C as [C|C]; [discriminate C|]); contradiction.
Ltac toy_pairs_tac := split; [|split];
  [ repeat (apply NoDup_cons; [cbn; absent|]); apply NoDup_nil
  | let x := fresh in let Hx := fresh in intros x Hx; repeat (destruct Hx as [<-|Hx]; [pick|]); contradiction
  | repeat (apply Forall_cons; [let E := fresh in intros ? E; discriminate E|]); apply Forall_nil ].

Lemma all_pairs : forall g d, plain g -> plain d -> plot_pairs (all_kv g d).
Proof.
  intros g d Hg Hd. split; [|split].
  - repeat (apply NoDup_cons; [cbn; absent|]). apply NoDup_nil.
  - intros x Hx. repeat (destruct Hx as [<-|Hx]; [pick|]). contradiction.
  - repeat (apply Forall_cons; [first [assumption | intros t E; discriminate E]|]). apply Forall_nil.
Qed.

Example ex_C126_pairs : plot_pairs (all_kv "grid" "dens").
Proof. apply all_pairs; intros t E; discriminate E. Qed.
Lemma toy_apart : forall g d, In g ["grid"; "grid2"; "grid3"] -> In d ["dens"; "dens4"] ->
  asked (all_kv g d) = ["t.png"; "b.png"; "d.png"] /\ apart_plots (all_kv g d).
Proof.
  intros g d Hg Hd.
  assert (A : asked (all_kv g d) = ["t.png"; "b.png"; "d.png"]) by (repeat (destruct Hg as [<-|Hg]; [repeat (destruct Hd as [<-|Hd]; [reflexivity|]); contradiction|]); contradiction).
  split; [exact A|]. unfold apart_plots. rewrite A. split.
  - repeat (apply NoDup_cons; [cbn; absent|]). apply NoDup_nil.
  - intros n Hn. repeat (destruct Hg as [<-|Hg]; [repeat (destruct Hd as [<-|Hd]; [repeat (destruct Hn as [<-|Hn]; [cbn; absent|]); contradiction|]); contradiction|]); contradiction.
Qed.
Lemma toy_ends : forall g d G L, In g ["grid"; "grid2"; "grid3"] -> In d ["dens"; "dens4"] -> holds rmat toy_reader toy_disk g G ->
  holds rmat toy_reader toy_disk d L -> length (m_rows G) = m_cols L -> (m_cols G = 2 -> square_grid G) ->
  exists fs', toy_plot (flat (all_kv g d)) toy_disk = (fs', Exited 0).
Proof.
  intros g d G L Ig Id Hg Hd E Sq. exists (fst (toy_plot (flat (all_kv g d)) toy_disk)).
  destruct (toy_apart g d Ig Id) as [A Ap].
  rewrite <- (C126_completes toy_writes toy_reader toy_render (all_kv g d) toy_disk).
  - apply surjective_pairing.
  - apply all_pairs; intros t Et; subst; [|]; [repeat (destruct Ig as [Ig|Ig]; [discriminate Ig|])|repeat (destruct Id as [Id|Id]; [discriminate Id|])]; contradiction.
  - exact Ap.
  - rewrite A. intros f [<-|[<-|[<-|[]]]]; reflexivity.
  - intros _ _. exists (mkMat 1 [[2]; [3]; [2]]%R). split; [exists "n"; split; reflexivity|]. intros _. split; [reflexivity|discriminate].
  - intros _ _ _. exists G, L. auto.
Qed.
(* all three plots, on a line and on a square grid *)
Example ex_C126 : exists fs', toy_plot (flat (all_kv "grid" "dens")) toy_disk = (fs', Exited 0) /\
  fs' "t.png" = Some "T" /\ fs' "b.png" = Some "B" /\ fs' "d.png" = Some "L".
Proof.
  destruct (toy_ends "grid" "dens" (mkMat 1 [[0]; [1]]%R) (mkMat 2 [[0; 1]; [2; 3]]%R)) as (fs' & R); try (cbn; tauto); try (eexists; split; reflexivity); try (intro C; discriminate C).
  exists fs'. split; [exact R|].
    destruct (C126_outputs _ _ _ _ _ _ ex_C126_pairs (proj2 (toy_apart "grid" "dens" (or_introl eq_refl) (or_introl eq_refl))) R) as (H1 & H2 & H3).
    destruct H1 as (m & d & _ & F & (its & -> & _) & _); try discriminate. split; [exact F|].
    destruct H2 as (m2 & d2 & _ & _ & F2 & (lo & hi & t & _ & _ & _ & _ & _ & ->)); try discriminate. split; [exact F2|].
    destruct H3 as (g & l & (c & Ec & Rc) & (c' & Ec' & Rc') & _ & D & _); try discriminate.
    injection Ec as <-. injection Rc as <-. injection Ec' as <-. injection Rc' as <-.
    destruct D as (d3 & -> & F3); try discriminate; [reflexivity|exact F3].
Qed.
Example ex_C126_square : square_grid (mkMat 2 [[0; 5]; [0; 6]; [1; 5]; [1; 6]]%R) /\
  exists fs', toy_plot (flat (all_kv "grid2" "dens4")) toy_disk = (fs', Exited 0) /\ fs' "d.png" = Some "C".
Proof.
  assert (Sq : square_grid (mkMat 2 [[0; 5]; [0; 6]; [1; 5]; [1; 6]]%R)).
  { split; [reflexivity|]. exists [0; 1]%R, [5; 6]%R. split; [|repeat split; cbn; lia].
    repeat constructor; [|intros []]. intros [E|[]]. lra. }
  split; [exact Sq|].
  assert (P2 : plot_pairs (all_kv "grid2" "dens4")) by (apply all_pairs; intros t E; discriminate E).
  assert (I1 : In "grid2" ["grid"; "grid2"; "grid3"]) by pick. assert (I2 : In "dens4" ["dens"; "dens4"]) by pick.
  destruct (toy_ends "grid2" "dens4" (mkMat 2 [[0; 5]; [0; 6]; [1; 5]; [1; 6]]%R) (mkMat 4 [[0; 1; 2; 3]; [0; 1; 2; 3]]%R) I1 I2) as (fs' & R);
    [eexists; split; reflexivity|eexists; split; reflexivity|reflexivity|intros _; exact Sq|].
  exists fs'. split; [exact R|]. destruct (C126_outputs _ _ _ (all_kv "grid2" "dens4") _ _ P2 (proj2 (toy_apart _ _ I1 I2)) R) as (_ & _ & H3).
  destruct H3 as (g & l & (c & Ec & Rc) & (c' & Ec' & Rc') & _ & _ & D & _); try discriminate.
  injection Ec as <-. injection Rc as <-. injection Ec' as <-. injection Rc' as <-.
  destruct D as (d3 & (k & xg & yg & zg & -> & _) & F3); try discriminate; [reflexivity|exact F3].
Qed.
Example ex_C126_unwritable : In "" (asked [("--n-cl-file", "ncl"); ("--n-cl-bar-plot", "")]) /\ toy_writes "" = false.
Proof. split; [cbn; tauto|reflexivity]. Qed.
Example ex_C126_refused : parse_args plot_options ["--data-file"; "x"] = Invalid /\ parse_args plot_options ["--n-cl-file"; "--dens-plot"] = Invalid.
Proof. split; reflexivity. Qed.
Example ex_C126_other : ~ In "d.png" (asked [("--dens-plot", "d.png"); ("--grid-file", "grid")]).
Proof. intros []. Qed.

(** A plot asked for together with its data is drawn when the program ends well:
    not on a grid of three dimensions, where an old plot is emptied. *)
Theorem C126_asked_plot_drawn_refuted : exists kv fs', plot_pairs kv /\ apart_plots kv /\ In "d.png" (asked kv) /\
  toy_disk "d.png" = Some "old" /\ toy_plot (flat kv) toy_disk = (fs', Exited 0) /\ fs' "d.png" = Some "".
Proof.
  assert (I1 : In "grid3" ["grid"; "grid2"; "grid3"]) by pick. assert (I2 : In "dens" ["dens"; "dens4"]) by pick.
  assert (P : plot_pairs (all_kv "grid3" "dens")) by (apply all_pairs; intros t E; discriminate E).
  destruct (toy_apart _ _ I1 I2) as [A Ap].
  destruct (toy_ends "grid3" "dens" (mkMat 3 [[0; 0; 0]; [1; 1; 1]]%R) (mkMat 2 [[0; 1]; [2; 3]]%R) I1 I2) as (fs' & R);
    [eexists; split; reflexivity|eexists; split; reflexivity|reflexivity|intro C; discriminate C|].
  exists (all_kv "grid3" "dens"), fs'. split; [exact P|]. split; [exact Ap|]. split; [rewrite A; cbn; tauto|]. split; [reflexivity|].
  split; [exact R|]. destruct (C126_outputs _ _ _ _ _ _ P Ap R) as (_ & _ & H3).
  destruct H3 as (g & l & (c & Ec & Rc) & _ & _ & _ & _ & D); try discriminate.
  injection Ec as <-. injection Rc as <-. apply D; discriminate.
Qed.
Print Assumptions C126_asked_plot_drawn_refuted.

(** A plot asked for without its data is refused: the program ends well without it. *)
Theorem C126_missing_data_refused_refuted : exists kv, plot_pairs kv /\ given kv "--n-cl-bar-plot" = "b.png" /\
  toy_plot (flat kv) toy_disk = (toy_disk, Exited 0) /\ toy_disk "b.png" = None.
Proof.
  exists [("--n-cl-bar-plot", "b.png"); ("--grid-file", "grid")]. split; [toy_pairs_tac|]. split; [reflexivity|]. split; reflexivity.
Qed.
Print Assumptions C126_missing_data_refused_refuted.

(** Old plots survive a failed run: they are emptied before the data are looked at. *)
Theorem C126_failure_keeps_plots_refuted : exists kv fs', plot_pairs kv /\ apart_plots kv /\ toy_disk "d.png" = Some "old" /\
  toy_plot (flat kv) toy_disk = (fs', Terminated) /\ fs' "d.png" = Some "".
Proof.
  exists [("--grid-file", "grid"); ("--dens-file", "dens4"); ("--dens-plot", "d.png")]. eexists.
  split; [toy_pairs_tac|]. split.
  - split; [repeat (apply NoDup_cons; [cbn; absent|]); apply NoDup_nil|]. intros n Hn. repeat (destruct Hn as [<-|Hn]; [cbn; absent|]). contradiction.
  - split; [reflexivity|]. split; [vm_compute; reflexivity|reflexivity].
Qed.
Print Assumptions C126_failure_keeps_plots_refuted.

(** A plot with the name of its data: the data are lost before they are read. *)
Theorem C126_data_kept_refuted : exists kv fs', plot_pairs kv /\ toy_disk "ncl" = Some "n" /\
  toy_plot (flat kv) toy_disk = (fs', Exited 0) /\ fs' "ncl" = Some (toy_render (Trace [] [])).
Proof.
  exists [("--n-cl-file", "ncl"); ("--n-cl-trace-plot", "ncl")]. eexists. split; [toy_pairs_tac|]. split; [reflexivity|].
  split; [vm_compute; reflexivity|reflexivity].
Qed.
Print Assumptions C126_data_kept_refuted.

(* a run of two iterations and its plots *)
Fixpoint tally_marks (n : nat) : string := match n with 0 => ";" | S n => String "i" (tally_marks n) end.
Definition marks_show (l : list (list nat)) : string := String.concat "" (map (fun r => String.concat "" (map tally_marks r)) l).
Fixpoint marks_read (acc : nat) (s : string) : list nat :=
  match s with
  | "" => []
  | String c s => if (c =? "i")%char then marks_read (S acc) s else if (c =? ";")%char then acc :: marks_read 0 s else marks_read acc s
  end.
Definition marks_matrix (s : string) : res rmat := Ok (mkMat 1 (map (fun n => [INR n]) (marks_read 0 s))).
Lemma marks_one : forall n acc s, marks_read acc (tally_marks n ++ s) = (acc + n) :: marks_read 0 s.
Proof.
  induction n as [|n IH]; intros acc s; cbn; [now rewrite Nat.add_0_r|]. rewrite IH. f_equal. lia.
Qed.
Lemma concat_cons : forall x l, String.concat "" (x :: l) = x ++ String.concat "" l.
Proof.
  intros x [|y l]; [|reflexivity]. cbn. clear. induction x as [|c x IH]; cbn; [reflexivity|]. now rewrite <- IH.
Qed.
Lemma marks_all : forall l, marks_read 0 (marks_show (map (fun n => [n]) l)) = l.
Proof.
  induction l as [|n l IH]; [reflexivity|]. unfold marks_show in *. cbn [map]. rewrite concat_cons. cbn [map String.concat]. now rewrite marks_one, IH.
Qed.
Definition run_kv : list (string * string) :=
  [("--algo-params-file", "a"); ("--hier-type", "NNIG"); ("--hier-args", "h"); ("--mix-type", "DP"); ("--mix-args", "m");
   ("--coll-name", "memory"); ("--data-file", "data"); ("--n-cl-file", "ncl")].
Definition draw_kv : list (string * string) := [("--n-cl-file", "ncl"); ("--n-cl-bar-plot", "b.png")].
Notation small_run := (main_program toy_writes unit nat rmat marks_matrix (fun _ _ _ _ _ => Ok tt) (fun _ => false) (fun _ => false)
  (fun _ => 1) (fun _ _ _ _ => Ok [2; 3]) (fun l => marks_show (map (fun n => [n]) l)) (fun s => Ok (marks_read 0 s)) "" (fun _ _ g _ _ => Ok g)
  (fun _ => "") marks_show (fun _ => [0]) (fun n => n) 0 (fun _ => Ok [0])).
Definition small_disk : files := fun f => if f =? "data" then Some "i;i;" else None.

Example ex_C126_after_run : (forall l, Ok (marks_read 0 (marks_show (map (fun n => [n]) l))) = Ok l) /\
  (forall l, l <> [] -> marks_matrix (marks_show (map (fun n => [n]) l)) = Ok (mkMat 1 (map (fun n => [INR n]) l))) /\
  pairs_ok run_kv /\ incl ("--coll-name" :: required_names) (map fst run_kv) /\ plot_pairs draw_kv /\ apart_plots draw_kv /\
  exists st fs1 fs2, parse_args run_options (flat run_kv) = Parsed st /\ separate st /\ get st "--n-cl-file" = Ok "ncl" /\
    small_run (flat run_kv) small_disk = (fs1, Exited 0) /\ fs1 "ncl" = Some "ii;iii;" /\
    plot_program toy_writes marks_matrix toy_render (flat draw_kv) fs1 = (fs2, Exited 0).
Proof.
  split; [intro l; now rewrite marks_all|]. split; [intros l _; unfold marks_matrix; now rewrite marks_all|].
  assert (P : pairs_ok run_kv) by toy_pairs_tac. assert (Q : plot_pairs draw_kv) by toy_pairs_tac.
  split; [exact P|]. split; [intros x Hx; repeat (destruct Hx as [<-|Hx]; [pick|]); contradiction|]. split; [exact Q|].
  assert (A : apart_plots draw_kv).
  { split; [repeat (apply NoDup_cons; [cbn; absent|]); apply NoDup_nil|]. intros n Hn. repeat (destruct Hn as [<-|Hn]; [cbn; absent|]). contradiction. }
  split; [exact A|].
  assert (I : incl required_names (map fst run_kv)) by (intros x Hx; repeat (destruct Hx as [<-|Hx]; [pick|]); contradiction).
  destruct (parse_pairs run_kv P I) as (st & Ps & G & D & _).
  assert (R : exists fs1, small_run (flat run_kv) small_disk = (fs1, Exited 0) /\ fs1 "ncl" = Some "ii;iii;").
  { eexists. split; [vm_compute; reflexivity|reflexivity]. }
  destruct R as (fs1 & R & N). exists st, fs1, (fst (plot_program toy_writes marks_matrix toy_render (flat draw_kv) fs1)).
  split; [exact Ps|]. split; [|split; [apply G; pick|split; [exact R|split; [exact N|]]]].
  - assert (E : requested st = ["ncl"]) by (vm_compute in Ps; injection Ps as <-; reflexivity).
    unfold separate. rewrite E. split; [repeat constructor; intros []|]. clear -Ps. vm_compute in Ps. injection Ps as <-. intros n f Hn Ef.
    repeat (destruct Hn as [<-|Hn]; [vm_compute in Ef; injection Ef as <-; cbn; absent|]). contradiction.
  - rewrite <- (C126_completes toy_writes marks_matrix toy_render draw_kv fs1 Q A).
    + apply surjective_pairing.
    + intros f [<-|[]]. reflexivity.
    + intros _ _. exists (mkMat 1 (map (fun n => [INR n]) [2; 3])). split; [exists "ii;iii;"; split; [exact N|reflexivity]|].
      intros _. split; [reflexivity|discriminate].
    + intro C. elim C. reflexivity.
Qed.
