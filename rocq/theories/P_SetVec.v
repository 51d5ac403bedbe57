(** * Property theorems: priors with vectors and matrices (C136) *)
From Coq Require Import String Ascii NArith ZArith Reals List Lia Lra.
From mathcomp Require Import all_ssreflect all_algebra.
From Verif Require Import Base Mixings Univ RealField MatLib Multi MultiFacts Fa LogitLib LogitUp Utils UtilsFacts Schema WireFacts Text TextSpec TextFacts TextLex Shipped
  Settings SettingsSpec SettingsFacts P_Text P_Settings SetVec SetLoad SetVecSpec SetVecFacts TextEx NnwFacts NwHyper.
From Verif Require Stick.
Set Implicit Arguments.
Unset Strict Implicit.
Unset Printing Implicit Defensive.
Import GRing.Theory.
Local Open Scope ring_scope.
Local Open Scope string_scope.

Definition asked A (o : option A) : res A := match o with Some x => Ok x | None => UB end.
Notation file t l := (fst (read_proto_from_file t (Some l))).

Ltac chosen_is N C f g := rewrite (case_chosen _ _ f g N ltac:(vm_compute; tauto) (erefl _) C).
Ltac real_is N H := rewrite (real_given _ _ _ _ N H (erefl _)).

Theorem C136_multivariate : forall l ts m d (p : nw_prior d), (0 < d)%N ->
  laid_out l ts -> written "NNWPrior" m ts -> once "NNWPrior" m -> nw_says m p ->
  (q <- asked (raw_nw_of (file "NNWPrior" l)) ;; nw_load q) = hypers_of (nw_init p).
Proof.
  move=> l ts m d p Hd L W O H. case: (read_back_file _ _ _ _ L W O) => E N. rewrite E {E L}. rewrite /raw_nw_of.
  case: p / H => [mean vs df scale C H1 H2 H3 H4|mean var vs df scale C H1 H2 H3 H4 H5|mean var a b nu scale df C H1 H2 H3 H4 H5 H6 H7|A B C].
  - chosen_is N C (Schema.one "prior" "fixed_values" 1 (KMsg "NWDistribution")) "prior". cbn [fname Schema.one]. rewrite String.eqb_refl.
    real_is N H2. real_is N H3.
    have [xs [-> [Es Ex]]] := vector_read N H1 (erefl _) (erefl _). have [b [ys [-> [Ey EA]]]] := matrix_read N H4 (erefl _) (erefl _).
    rewrite /= vector_eigen /=. rewrite matrix_eigen //= Es. rewrite grid_squared Hd /=. by rewrite (grid_mx EA) Ex.
  - chosen_is N C (Schema.one "prior" "normal_mean_prior" 2 (KMsg "NNWPrior.NormalMeanPrior")) "prior".
    change (String.eqb (fname _) "fixed_values") with false. change (String.eqb (fname _) "normal_mean_prior") with true. cbn iota.
    real_is N H3. real_is N H4.
    have [xs [-> [Es Ex]]] := vector_read N H1 (erefl _) (erefl _). have [b [ys [-> [Ey EA]]]] := matrix_read N H2 (erefl _) (erefl _).
    have [b' [zs [-> [Ez EB]]]] := matrix_read N H5 (erefl _) (erefl _).
    rewrite /= vector_eigen /=. rewrite !matrix_eigen //= Es. rewrite !grid_nr eqxx /= !grid_squared /=. by rewrite (grid_mx EA) (grid_mx EB) Ex.
  - chosen_is N C (Schema.one "prior" "ngiw_prior" 3 (KMsg "NNWPrior.NGIWPrior")) "prior".
    change (String.eqb (fname _) "fixed_values") with false. change (String.eqb (fname _) "normal_mean_prior") with false. cbn iota.
    real_is N H3. real_is N H4. real_is N H5. real_is N H7.
    have [xs [-> [Es Ex]]] := vector_read N H1 (erefl _) (erefl _). have [b1 [ys [-> [Ey EA]]]] := matrix_read N H2 (erefl _) (erefl _).
    have [b' [zs [-> [Ez EB]]]] := matrix_read N H6 (erefl _) (erefl _).
    rewrite /= vector_eigen /=. rewrite !matrix_eigen //= Es. rewrite !grid_nr eqxx /= !grid_squared /=. by rewrite (grid_mx EA) (grid_mx EB) Ex.
  - rewrite case_silent //= => f F _. cbn in F. by case: F => [<-|[<-|[<-|[]]]]; split.
Qed.
Print Assumptions C136_multivariate.

Theorem C136_regression : forall l ts m d (p : mnig_prior d), (0 < d)%N ->
  laid_out l ts -> written "LinRegUniPrior" m ts -> once "LinRegUniPrior" m -> mnig_says m p ->
  (q <- asked (raw_mnig_of (file "LinRegUniPrior" l)) ;; mnig_load q) = hypers_of (mnig_init p).
Proof.
  move=> l ts m d p Hd L W O H. case: (read_back_file _ _ _ _ L W O) => E N. rewrite E {E L}. rewrite /raw_mnig_of.
  case: p / H => [mean vs shape scale C H1 H2 H3 H4|A].
  - chosen_is N C (Schema.one "prior" "fixed_values" 1 (KMsg "MultiNormalIGDistribution")) "prior".
    real_is N H3. real_is N H4.
    have [xs [-> [Es Ex]]] := vector_read N H1 (erefl _) (erefl _). have [b [ys [-> [Ey EA]]]] := matrix_read N H2 (erefl _) (erefl _).
    rewrite /= vector_eigen /=. rewrite matrix_eigen //= Es. rewrite grid_squared /=. by rewrite (grid_mx EA) Ex.
  - rewrite case_silent //= => f F _. cbn in F. by case: F => [<-|[]]; split.
Qed.
Print Assumptions C136_regression.

(** No dimension is asked of the factor model. *)
Theorem C136_factor : forall l ts m p (pr : fa_prior p) q,
  laid_out l ts -> written "FAPrior" m ts -> once "FAPrior" m -> fa_says m pr q ->
  (x <- asked (raw_fa_of (file "FAPrior" l)) ;; fa_load x) = (h <- hypers_of (fa_init q pr) ;; Ok (h, q)).
Proof.
  move=> l ts m p pr q L W O H. case: (read_back_file _ _ _ _ L W O) => E N. rewrite E {E L}. rewrite /raw_fa_of.
  case: pr q / H => [mu beta phi alpha0 q C H1 H2 H3 H4 H5|q A].
  - chosen_is N C (Schema.one "prior" "fixed_values" 1 (KMsg "FAPriorDistribution")) "prior".
    real_is N H3. real_is N H4. rewrite (count_counted _ _ _ _ N H5 (erefl _)) Nnat.Nat2N.id.
    have [xs [-> [Es Ex]]] := vector_read N H1 (erefl _) (erefl _). have [ys [-> [Ey Ez]]] := vector_read N H2 (erefl _) (erefl _).
    rewrite /= !vector_eigen /=. rewrite Es Ey eqxx /=. by rewrite Ex Ez.
  - rewrite case_silent //= => f F _. cbn in F. by case: F => [<-|[]]; split.
Qed.
Print Assumptions C136_factor.

(** ** The mixings *)
Lemma shapes_betas : forall v l, betas v l -> (forall w, In (Npos xH, XMsg w) v -> nested "BetaDistribution" w) ->
  shapes (entries (Npos xH) v) = Some l.
Proof.
  move=> v l. elim=> [|w a b m {}l A B _ IH] H //. rewrite /entries /=.
  have N : nested "BetaDistribution" w by apply: H; left. real_is N A. real_is N B. rewrite /=.
  move: IH; rewrite /entries => -> //. by move=> w' Hw; apply: H; right.
Qed.

Theorem C136_truncated : forall l ts m p b nc, (0 < nc)%N ->
  laid_out l ts -> written "TruncSBPrior" m ts -> once "TruncSBPrior" m -> sb_says m p ->
  flagged "TruncSBPrior" m [at "infinite_mixture"] b -> counted "TruncSBPrior" m [at "num_components"] (N.of_nat nc) ->
  (q <- asked (raw_sb_of (file "TruncSBPrior" l)) ;; sb_load q (sb_infinite_of (file "TruncSBPrior" l)) (sb_size_of (file "TruncSBPrior" l))) =
  Stick.sb_init p b nc.
Proof.
  move=> l ts m p b nc Hn L W O H F C0. case: (read_back_file _ _ _ _ L W O) => E N. rewrite E {E L}. rewrite /raw_sb_of /sb_infinite_of /sb_size_of.
  rewrite (flag_flagged N F) // (size_counted N C0) //.
  case: p / H => [v xs S B|a C H|s d C H1 H2].
  - have C : chosen "TruncSBPrior" m "beta_priors" by exists (XMsg v).
    chosen_is N C (Schema.one "prior" "beta_priors" 1 (KMsg "TruncSBPrior.BetaPriors")) "prior". cbn [fname Schema.one]. rewrite String.eqb_refl.
    rewrite (message_says N S).
    have Nv : nested "TruncSBPrior.BetaPriors" v by apply: (says_nested S).
    rewrite /values_at /=. rewrite (shapes_betas B) /=.
    + case: xs B => [|x xs] _ //=. by case: nc Hn {C0}.
    + move=> w Hw. case: Nv => [us [Wv _]]. exact: (proj1 nested_written _ _ _ Wv (Schema.rep "beta_distributions" 1 (KMsg "BetaDistribution")) "BetaDistribution" w (or_introl (erefl _)) (erefl _) Hw).
  - chosen_is N C (Schema.one "prior" "dp_prior" 2 (KMsg "TruncSBPrior.DPPrior")) "prior".
    change (String.eqb (fname _) "beta_priors") with false. change (String.eqb (fname _) "dp_prior") with true. cbn iota. by real_is N H.
  - chosen_is N C (Schema.one "prior" "py_prior" 3 (KMsg "TruncSBPrior.PYPrior")) "prior".
    change (String.eqb (fname _) "beta_priors") with false. change (String.eqb (fname _) "dp_prior") with false. cbn iota. real_is N H1. by real_is N H2.
Qed.
Print Assumptions C136_truncated.

Lemma column_list : forall n (l : seq R), size l = n -> column_of (colv n l) = l.
Proof.
  move=> n l <-. apply: (@eq_from_nth _ 0); rewrite /column_of size_map size_enum_ord // => i Hi.
  rewrite (nth_map (Ordinal Hi)) ?size_enum_ord // mxE. by rewrite nth_enum_ord.
Qed.
Lemma rows_grid : forall b d (l : seq R) (A : 'M[R]_d), (forall i j, A i j = nth 0 l (offset b d d i j)) -> grid b d d l = rows_of A.
Proof.
  move=> b d l A H. rewrite /grid /rows_of.
  have X : forall T (f : nat -> T), [seq f i | i <- iota 0 d] = [seq f (nat_of_ord i) | i <- enum 'I_d].
  { move=> T f. rewrite -[in LHS]val_enum_ord -map_comp. by []. }
  rewrite X. apply: eq_map => i. rewrite X. apply: eq_map => j. by rewrite H.
Qed.

Theorem C136_logit : forall l ts m p,
  laid_out l ts -> written "LogSBPrior" m ts -> once "LogSBPrior" m -> lg_says m p ->
  (q <- asked (raw_lg_of (file "LogSBPrior" l)) ;; lg_load q) = lg_init p.
Proof.
  move=> l ts m p L W O H. case: (read_back_file _ _ _ _ L W O) => E N. rewrite E {E L}. rewrite /raw_lg_of.
  case: p / H => [d mean var step H Hd C H1 H2 H3 H4|step H A H3 H4].
  - chosen_is N C (Schema.one "coeff" "normal_prior" 1 (KMsg "MultiNormalDistribution")) "coeff".
    rewrite (size_counted N H4) //. real_is N H3.
    have [xs [-> [Es Ex]]] := vector_read N H1 (erefl _) (erefl _). have [b [ys [-> [Ey EA]]]] := matrix_read N H2 (erefl _) (erefl _).
    rewrite /= /lg_load /= vector_eigen /=. rewrite matrix_eigen //=. by rewrite (rows_grid EA) -Ex column_list.
  - rewrite case_silent; last first. { move=> f F. cbn in F. by case: F => [<-|[<-|[<-|[]]]] // _; split. }
    rewrite (size_counted N H4) //. real_is N H3. by [].
Qed.
Print Assumptions C136_logit.

(** ** Too few numbers: memory behind the vector is read *)
Lemma vector_raw : forall t m path v n xs, nested t m -> says t m path (XMsg v) -> ends t path = Some "Vector" ->
  counted "Vector" v [at "size"] (N.of_nat n) -> listed 2 v xs -> vector_at t m path = Some (mkVecMsg n xs).
Proof.
  move=> t m path v n xs N S En C L. have Nv : nested "Vector" v by apply: (says_nested S).
  rewrite /vector_at (message_says N S) (size_counted Nv C) //. rewrite /values_at /=. by rewrite (numbers_listed L).
Qed.
Lemma matrix_raw : forall t m path w ys, nested t m -> says t m path (XMsg w) -> ends t path = Some "Matrix" -> listed 3 w ys ->
  exists r c b, matrix_at t m path = Some (mkMatMsg r c b ys).
Proof.
  move=> t m path w ys N S En L. have Nv : nested "Matrix" w by apply: (says_nested S).
  rewrite /matrix_at (message_says N S). rewrite /values_at /= (numbers_listed L) /=. by do 3 eexists.
Qed.

Theorem C136_short_vector : forall l ts m v n xs w ys shape scale,
  laid_out l ts -> written "LinRegUniPrior" m ts -> once "LinRegUniPrior" m -> chosen "LinRegUniPrior" m "fixed_values" ->
  says "LinRegUniPrior" m [at "fixed_values"; "mean"] (XMsg v) -> counted "Vector" v [at "size"] (N.of_nat n) -> listed 2 v xs ->
  says "LinRegUniPrior" m [at "fixed_values"; "var_scaling"] (XMsg w) -> listed 3 w ys ->
  given "LinRegUniPrior" m [at "fixed_values"; "shape"] shape -> given "LinRegUniPrior" m [at "fixed_values"; "scale"] scale ->
  (size xs < n)%N ->
  (q <- asked (raw_mnig_of (file "LinRegUniPrior" l)) ;; mnig_load q) = UB.
Proof.
  move=> l ts m v n xs w ys shape scale L W O C S C1 L1 S2 L2 H3 H4 Hn. case: (read_back_file _ _ _ _ L W O) => E N. rewrite E {E L}. rewrite /raw_mnig_of.
  chosen_is N C (Schema.one "prior" "fixed_values" 1 (KMsg "MultiNormalIGDistribution")) "prior". real_is N H3. real_is N H4.
  rewrite (vector_raw N S (erefl _) C1 L1). have [r [c [b ->]]] := matrix_raw N S2 (erefl _) L2. rewrite /=.
  have -> : vec_to_eigen (mkVecMsg n xs) = UB. { apply/vec_short. exact/ltP. } by [].
Qed.
Print Assumptions C136_short_vector.

(** ** Vectors and matrices that are left out end the program with two of the hierarchies *)
Lemma matrix_silent : forall t m path, singular t path = true -> silent t m path -> matrix_at t m path = Some (mkMatMsg 0 0 false nil).
Proof. by move=> t m path S Q; rewrite /matrix_at (message_silent S Q). Qed.
Lemma vector_silent : forall t m path, singular t path = true -> silent t m path -> vector_at t m path = Some (mkVecMsg 0 nil).
Proof. by move=> t m path S Q; rewrite /vector_at (message_silent S Q). Qed.

Theorem C136_omitted_stops : forall l ts,
  laid_out l ts ->
  (forall m vs df, written "NNWPrior" m ts -> once "NNWPrior" m -> chosen "NNWPrior" m "fixed_values" ->
     silent "NNWPrior" m [at "fixed_values"; "mean"] -> silent "NNWPrior" m [at "fixed_values"; "scale"] ->
     given "NNWPrior" m [at "fixed_values"; "var_scaling"] vs -> given "NNWPrior" m [at "fixed_values"; "deg_free"] df ->
     Rle df (IZR 4294967295) ->
     exists msg, (q <- asked (raw_nw_of (file "NNWPrior" l)) ;; nw_load q) = Throw msg) /\
  (forall m a b, written "LinRegUniPrior" m ts -> once "LinRegUniPrior" m -> chosen "LinRegUniPrior" m "fixed_values" ->
     silent "LinRegUniPrior" m [at "fixed_values"; "mean"] -> silent "LinRegUniPrior" m [at "fixed_values"; "var_scaling"] ->
     given "LinRegUniPrior" m [at "fixed_values"; "shape"] a -> given "LinRegUniPrior" m [at "fixed_values"; "scale"] b ->
     exists msg, (q <- asked (raw_mnig_of (file "LinRegUniPrior" l)) ;; mnig_load q) = Throw msg).
Proof.
  move=> l ts L. split.
  - move=> m vs df W O C S1 S2 H1 H2 Hd. case: (read_back_file _ _ _ _ L W O) => E N. rewrite E {E L}. rewrite /raw_nw_of.
    chosen_is N C (Schema.one "prior" "fixed_values" 1 (KMsg "NWDistribution")) "prior". cbn [fname Schema.one]. rewrite String.eqb_refl.
    real_is N H1. real_is N H2. rewrite (vector_silent _ S1) // (matrix_silent _ S2) //=.
    case: (lteb vs 0); first by eexists. rewrite /lteb. case: (Rle_dec _ _) => H; first by eexists. by [].
  - move=> m a b W O C S1 S2 H1 H2. case: (read_back_file _ _ _ _ L W O) => E N. rewrite E {E L}. rewrite /raw_mnig_of.
    chosen_is N C (Schema.one "prior" "fixed_values" 1 (KMsg "MultiNormalIGDistribution")) "prior".
    real_is N H1. real_is N H2. rewrite (vector_silent _ S1) // (matrix_silent _ S2) //=.
    rewrite /mx /=. set A := mx_of 0 _. have -> : A = 0 by apply/matrixP => i; case: i. rewrite /inverse_spd /check_spd trmx0 eqxx /=. by eexists.
Qed.
Print Assumptions C136_omitted_stops.

(* m * 10^e *)
Definition dec (m e : Z) : R := Rmult (IZR m) (powerRZ (IZR 10) e).

(** but not with the factor model, and the file of the shipped example leaves them out *)
Theorem C136_factor_omitted_stops_refuted : exists h : fa_hyp 0,
  (x <- asked (raw_fa_of (file "FAPrior" (snd (List.nth 1 shipped ("", nil))))) ;; fa_load x) = Ok (existT _ 0%N h, 5%N).
Proof.
  have E : exists m, file "FAPrior" (snd (List.nth 1 shipped ("", nil))) = m /\
    raw_fa_of m = Some (RFFixed (mkVecMsg 0 nil) (mkVecMsg 0 nil) (dec 1 (-2)) (dec 5 0) 5%N).
  { eexists. split; [vm_compute; reflexivity|]. reflexivity. }
  case: E => m [-> ->]. have P1 : Rlt R0 (dec 1 (-2)) by rewrite /dec hundredth; lra. have P2 : Rlt R0 (dec 5 0) by rewrite /dec /=; lra.
  rewrite /=.
  case: existsP => [[j]|_]; first by case: j. 
  have X : forall x, Rlt R0 x -> lteb x R0 = false by move=> x Hx; rewrite /lteb; case: (Rle_dec x R0) => // H; exfalso; lra.
  rewrite !X //=. by eexists.
Qed.
Print Assumptions C136_factor_omitted_stops_refuted.

(** ** The tutorial's multivariate prior *)
Lemma scalar_check : forall a (A : 'M[R]_2), Rlt R0 a -> A = a%:M -> check_spd A = Ok tt /\ spd A.
Proof.
  move=> a A Ha ->. have H : spd (a%:M : 'M[R]_2). { rewrite -[a%:M]scalemx1. apply: spd_scale (spd1 _ _); exact/rltbP. }
  split=> //. by apply/check_spd_ok.
Qed.

Theorem C136_tutorial : exists h : nw 2, nw_valid h /\
  (q <- asked (raw_nw_of (file "NNWPrior" (snd (List.nth 4 shipped ("", nil))))) ;; nw_load q) = Ok (existT _ 2%N h).
Proof.
  have E : exists m, file "NNWPrior" (snd (List.nth 4 shipped ("", nil))) = m /\
    raw_nw_of m = Some (RNNgiw (mkVecMsg 2 (cons (dec 55 (-1)) (cons (dec 55 (-1)) nil)))
      (mkMatMsg 2 2 false (cons (dec 2 (-1)) (cons (dec 0 (-1)) (cons (dec 0 (-1)) (cons (dec 2 (-1)) nil)))))
      (dec 2 (-1)) (dec 6 (-1)) (dec 50 (-1))
      (mkMatMsg 2 2 false (cons (dec 50 (-1)) (cons (dec 0 (-1)) (cons (dec 0 (-1)) (cons (dec 50 (-1)) nil)))))
      (dec 50 (-1))).
  { eexists. split; [vm_compute; reflexivity|]. reflexivity. }
  case: E => m [-> ->].
  have X : forall x, Rlt R0 x -> lteb x R0 = false by move=> x Hx; rewrite /lteb; case: (Rle_dec x R0) => // H; exfalso; lra.
  rewrite /asked. cbn [rbind]. rewrite /nw_load. set xs := cons (dec 55 (-1)) _. rewrite -[mkVecMsg 2 xs]/(vec_to_proto xs) vector_eigen. cbn [rbind]. rewrite !matrix_eigen //. cbn [rbind].
  rewrite -[size xs]/2%N. cbn zeta. rewrite !grid_nr eqxx !grid_squared. cbn [negb orb].
  set z := dec 0 (-1). have Z : z = 0 by rewrite /z /dec Rmult_0_l.
  have D : forall k, dec k (-1) = Rdiv (IZR k) (IZR 10) by move=> k; rewrite /dec tenth.
  set S := mx _ _. set T := mx _ _.
  have [ES HS] : check_spd S = Ok tt /\ spd S.
  { apply: (@scalar_check (dec 2 (-1))); first by rewrite D; lra. apply/matrixP => i j. rewrite /S /mx /mx_of !mxE.
    by case: i => [[|[|i]] Hi] //; case: j => [[|[|j]] Hj] //=; rewrite ?mulr1n ?mulr0n ?Z. }
  have [ET HT] : check_spd T = Ok tt /\ spd T.
  { apply: (@scalar_check (dec 50 (-1))); first by rewrite D; lra. apply/matrixP => i j. rewrite /T /mx /mx_of !mxE.
    by case: i => [[|[|i]] Hi] //; case: j => [[|[|j]] Hj] //=; rewrite ?mulr1n ?mulr0n ?Z. }
  set p := NWNgiw _ _ _ _ _ _ _.
  have [h Eh] : exists h, nw_init p = Ok h.
  { rewrite /p /nw_init ES /= ET /=. rewrite !X; try by rewrite D; lra.
    have -> : lteb (dec 50 (-1)) (2%:R - 1) = false.
    { rewrite /lteb. case: (Rle_dec _ _) => // H. exfalso. move: H. rewrite D. change (2%:R - 1 : R) with (Rminus (Rplus R1 R1) R1). lra. }
    rewrite /nw_finish. have -> : inverse_spd ((dec 50 (-1) + 2%:R + 1)^-1 *: T) = Ok (invmx ((dec 50 (-1) + 2%:R + 1)^-1 *: T)).
    { apply/inverse_spd_ok. split=> //. apply: spd_scale HT. apply/rltbP. rewrite D.
      change (Rlt R0 (Rinv (Rplus (Rplus (Rdiv (IZR 50) (IZR 10)) (Rplus R1 R1)) R1))). apply: Rinv_0_lt_compat. lra. }
    by eexists. }
  exists h. split; first exact: nw_init_valid Eh. by rewrite /hypers_of Eh.
Qed.
Print Assumptions C136_tutorial.

(** The tutorial's file for the Laplace hierarchy is not one: its prior is that of the
    semi-conjugate hierarchy (lapnig_hierarchy.h:30-32), which has no fields for the
    proposals.  The program prints an error and goes on with the four values before them. *)
Theorem C136_laplace_file_fits_refuted : exists m msg, read_proto_from_file "NNxIGPrior" (Some (snd (List.nth 7 shipped ("", nil)))) = (m, msg) /\
  msg <> "" /\ nxig_prior_of m = Some (NxIGFixed (dec 0 0) (dec 10 0) (dec 2 0) (dec 1 0)).
Proof. eexists; eexists. split; [vm_compute; reflexivity|]. split; [discriminate|]. reflexivity. Qed.
Print Assumptions C136_laplace_file_fits_refuted.

(** The memory behind an empty list of beta distributions is read. *)
Theorem C136_no_components_refuted : exists l m, read_proto_from_file "TruncSBPrior" (Some l) = (m, "") /\
  (q <- asked (raw_sb_of m) ;; sb_load q (sb_infinite_of m) (sb_size_of m)) = UB.
Proof. exists (list_ascii_of_string "beta_priors { }"). eexists. split; [vm_compute; reflexivity|]. reflexivity. Qed.
Print Assumptions C136_no_components_refuted.

(** ** Examples *)
Ltac said := apply: says_leaf; reflexivity.
Ltac numbers_listed_ := repeat (first [apply: ls_here; [by constructor|] | apply: ls_skip; [by []|] | exact: ls_end]).
Ltac number_given x := left; exists x; split; [said|constructor].

Definition d1 (n : N) : tval := XDec false n 0.
Definition v2 : tmessage := cons (Npos 1, XInt 2) (cons (Npos 2, d1 3) (cons (Npos 2, d1 4) nil)).
Definition a2 : tmessage := cons (Npos 1, XInt 2) (cons (Npos 2, XInt 2) (cons (Npos 4, XInt 1)
  (cons (Npos 3, d1 5) (cons (Npos 3, d1 6) (cons (Npos 3, d1 7) (cons (Npos 3, d1 8) nil)))))).
Definition w2 (c : tmessage) : tmessage := cons (Npos 1, XMsg c) nil.

Definition v2_vector : 'cV[R]_2 := colv 2 (cons (dec 3 0) (cons (dec 4 0) nil)).
(* 5 6 / 7 8, by rows *)
Definition a2_matrix : 'M[R]_2 := \matrix_(i, j) nth 0 (cons (dec 5 0) (cons (dec 6 0) (cons (dec 7 0) (cons (dec 8 0) nil)))) (i * 2 + j)%N.

Lemma v2_given : forall t m path, says t m path (XMsg v2) -> vector_given t m path v2_vector.
Proof.
  move=> t m path S. left. exists v2, (cons (dec 3 0) (cons (dec 4 0) nil)). split=> //. split; first by left; said.
  split; first by numbers_listed_. split=> // i. by rewrite mxE.
Qed.
Lemma a2_given : forall t m path, says t m path (XMsg a2) -> matrix_given t m path a2_matrix.
Proof.
  move=> t m path S. exists a2, (cons (dec 5 0) (cons (dec 6 0) (cons (dec 7 0) (cons (dec 8 0) nil)))), true. split=> //. split; first by left; said.
  split; first by left; said. split; first by rewrite /flagged; said. split; first by numbers_listed_. split=> // i j. by rewrite mxE.
Qed.

Definition nnw_example : tmessage :=
  w2 (cons (Npos 1, XMsg v2) (cons (Npos 2, d1 1) (cons (Npos 3, d1 9) (cons (Npos 4, XMsg a2) nil)))).
Example C136_multivariate_example : exists ts,
  laid_out (text_of "NNWPrior" nnw_example) ts /\ written "NNWPrior" nnw_example ts /\ once "NNWPrior" nnw_example /\
  nw_says nnw_example (NWFixed v2_vector (dec 1 0) (dec 9 0) a2_matrix).
Proof.
  have [ts [L [W O]]] := @text_of_ok "NNWPrior" nnw_example (erefl _). exists ts. split=> //. split=> //. split=> //.
  apply: nws_fixed; [by eexists; said|by apply: v2_given; said|by number_given (d1 1)|by number_given (d1 9)|by apply: a2_given; said].
Qed.

Definition reg_example : tmessage :=
  w2 (cons (Npos 1, XMsg v2) (cons (Npos 2, XMsg a2) (cons (Npos 3, d1 1) (cons (Npos 4, d1 9) nil)))).
Example C136_regression_example : exists ts,
  laid_out (text_of "LinRegUniPrior" reg_example) ts /\ written "LinRegUniPrior" reg_example ts /\ once "LinRegUniPrior" reg_example /\
  mnig_says reg_example (MNIGFixed v2_vector a2_matrix (dec 1 0) (dec 9 0)).
Proof.
  have [ts [L [W O]]] := @text_of_ok "LinRegUniPrior" reg_example (erefl _). exists ts. split=> //. split=> //. split=> //.
  apply: mns_fixed; [by eexists; said|by apply: v2_given; said|by apply: a2_given; said|by number_given (d1 1)|by number_given (d1 9)].
Qed.

Definition fa_example : tmessage :=
  w2 (cons (Npos 1, XMsg v2) (cons (Npos 2, XMsg v2) (cons (Npos 3, d1 1) (cons (Npos 4, d1 6) (cons (Npos 5, XInt 3) nil))))).
Example C136_factor_example : exists ts,
  laid_out (text_of "FAPrior" fa_example) ts /\ written "FAPrior" fa_example ts /\ once "FAPrior" fa_example /\
  fa_says fa_example (FAFixed v2_vector v2_vector (dec 1 0) (dec 6 0)) 3.
Proof.
  have [ts [L [W O]]] := @text_of_ok "FAPrior" fa_example (erefl _). exists ts. split=> //. split=> //. split=> //.
  apply: fas_fixed; [by eexists; said|by apply: v2_given; said|by apply: v2_given; said|by number_given (d1 1)|by number_given (d1 6)|by left; said].
Qed.

Definition lg_example : tmessage :=
  cons (Npos 1, XMsg (cons (Npos 1, XMsg v2) (cons (Npos 2, XMsg a2) nil))) (cons (Npos 2, d1 1) (cons (Npos 3, XInt 4) nil)).
Example C136_logit_example : exists ts,
  laid_out (text_of "LogSBPrior" lg_example) ts /\ written "LogSBPrior" lg_example ts /\ once "LogSBPrior" lg_example /\
  lg_says lg_example (mkLP 4 (dec 1 0) (Some (column_of v2_vector, rows_of a2_matrix))).
Proof.
  have [ts [L [W O]]] := @text_of_ok "LogSBPrior" lg_example (erefl _). exists ts. split=> //. split=> //. split=> //.
  apply: lgs_normal => //; [by eexists; said|by apply: v2_given; said|by apply: a2_given; said|by number_given (d1 1)|by left; said].
Qed.

Definition beta_example (a b : N) : tval := XMsg (cons (Npos 1, d1 a) (cons (Npos 2, d1 b) nil)).
Definition sb_example : tmessage :=
  cons (Npos 1, XMsg (cons (Npos 1, beta_example 1 2) (cons (Npos 1, beta_example 3 4) nil))) (cons (Npos 4, XInt 2) (cons (Npos 5, XInt 1) nil)).
Lemma beta_given : forall a b, given "BetaDistribution" (cons (Npos 1, d1 a) (cons (Npos 2, d1 b) nil)) [at "shape_a"] (dec (Z.of_N a) 0) /\
  given "BetaDistribution" (cons (Npos 1, d1 a) (cons (Npos 2, d1 b) nil)) [at "shape_b"] (dec (Z.of_N b) 0).
Proof. move=> a b. split; [number_given (d1 a)|number_given (d1 b)]. Qed.
Example C136_truncated_example : exists ts,
  laid_out (text_of "TruncSBPrior" sb_example) ts /\ written "TruncSBPrior" sb_example ts /\ once "TruncSBPrior" sb_example /\
  sb_says sb_example (Stick.BetaPriors Stick.numR (cons (dec 1 0, dec 2 0) (cons (dec 3 0, dec 4 0) nil))) /\
  flagged "TruncSBPrior" sb_example [at "infinite_mixture"] true /\ counted "TruncSBPrior" sb_example [at "num_components"] (N.of_nat 2).
Proof.
  have [ts [L [W O]]] := @text_of_ok "TruncSBPrior" sb_example (erefl _). exists ts. split=> //. split=> //. split=> //.
  split; last by split; [rewrite /flagged; said|left; said].
  apply: sbs_beta; first by said. apply: bs_more; [exact: (proj1 (beta_given 1 2))|exact: (proj2 (beta_given 1 2))|].
  apply: bs_more; [exact: (proj1 (beta_given 3 4))|exact: (proj2 (beta_given 3 4))|]. exact: bs_end.
Qed.

(* one number where two are announced *)
Definition short_example : tmessage :=
  w2 (cons (Npos 1, XMsg (cons (Npos 1, XInt 2) (cons (Npos 2, d1 3) nil))) (cons (Npos 2, XMsg a2) (cons (Npos 3, d1 1) (cons (Npos 4, d1 9) nil)))).
Example C136_short_example : (q <- asked (raw_mnig_of (file "LinRegUniPrior" (text_of "LinRegUniPrior" short_example))) ;; mnig_load q) = UB.
Proof.
  have [ts [L [W O]]] := @text_of_ok "LinRegUniPrior" short_example (erefl _).
  apply: (@C136_short_vector _ ts short_example (cons (Npos 1, XInt 2) (cons (Npos 2, d1 3) nil)) 2 (cons (dec 3 0) nil) a2 _ (dec 1 0) (dec 9 0) L W O);
    [by eexists; said|said|by left; said|by numbers_listed_|said|by numbers_listed_|by number_given (d1 1)|by number_given (d1 9)|by []].
Qed.

Definition empty_example : tmessage := w2 (cons (Npos 3, d1 1) nil).
Example C136_omitted_example :
  (exists msg, (q <- asked (raw_nw_of (file "NNWPrior" (text_of "NNWPrior" empty_example))) ;; nw_load q) = Throw msg) /\
  (exists msg, (q <- asked (raw_mnig_of (file "LinRegUniPrior" (text_of "LinRegUniPrior" empty_example))) ;; mnig_load q) = Throw msg).
Proof.
  split.
  - have [ts [L [W O]]] := @text_of_ok "NNWPrior" empty_example (erefl _). have [H _] := C136_omitted_stops L.
    have N : nested "NNWPrior" empty_example by exists ts.
    apply: (H empty_example R0 (dec 1 0) W O); [by eexists; said|by apply: silent_leaf|by apply: silent_leaf|right; split=> //; exact: silent_leaf|by number_given (d1 1)|].
    rewrite /dec /=. lra.
  - have [ts [L [W O]]] := @text_of_ok "LinRegUniPrior" empty_example (erefl _). have [_ H] := C136_omitted_stops L.
    have N : nested "LinRegUniPrior" empty_example by exists ts.
    apply: (H empty_example (dec 1 0) R0 W O); [by eexists; said|by apply: silent_leaf|by apply: silent_leaf|by number_given (d1 1)|right; split=> //; exact: silent_leaf].
Qed.
