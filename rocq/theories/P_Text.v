(** * Property theorems: configuration files (C133) *)
From Coq Require Import String Ascii.
From Coq Require Import List NArith ZArith Bool Lia.
From Verif Require Import Schema WireFacts Text TextSpec TextFacts TextLex Shipped.
Import ListNotations.
Local Open Scope N_scope.

Definition txt : string -> text := list_ascii_of_string.
Definition field_number (t s : string) : N := match field_named t s with Some f => fnum f | None => 0 end.

(** ** A file that follows the grammar is read as the message it stands for *)
Theorem C133_reads : forall t m l ts, laid_out l ts -> written t m ts -> once t m -> read_text t l = (m, true).
Proof.
  intros t m l ts L W O. unfold read_text. rewrite (tokens_ok l ts L).
  destruct (proj1 read_written t m ts W [] None [] (S (length ts)) O Logic.I ltac:(lia)) as (fuel & Lf & E).
  rewrite app_nil_r in E. rewrite E. destruct fuel as [|fuel]; [lia|]. reflexivity.
Qed.
Print Assumptions C133_reads.

Theorem C133_file : forall t m l ts, laid_out l ts -> written t m ts -> once t m ->
  read_proto_from_file t (Some l) = (m, EmptyString).
Proof. intros t m l ts L W O. unfold read_proto_from_file. rewrite (C133_reads t m l ts L W O). reflexivity. Qed.
Print Assumptions C133_file.

(* size: 2  # both coordinates
   data: [-.5e1, 3];  *)
Definition a_vector : text := txt "size: 2 # both coordinates
data: [-.5e1, 3];".
Definition a_vector_tokens : list token :=
  [word_of "size"; TSym ":"; TNum 2; word_of "data"; TSym ":"; TSym "["; TSym "-"; TFloat 5 0; TSym ","; TNum 3; TSym "]"; TSym ";"].

Lemma a_vector_written : written "Vector" [(1, XInt 2); (2, XDec true 5 0); (2, XDec false 3 0)] a_vector_tokens.
Proof.
  apply (wr_field "Vector" (sing "size" 1 KInt32) [XInt 2] [TSym ":"; TNum 2] [] [(2, XDec true 5 0); (2, XDec false 3 0)]
    [word_of "data"; TSym ":"; TSym "["; TSym "-"; TFloat 5 0; TSym ","; TNum 3; TSym "]"; TSym ";"]).
  - left. reflexivity.
  - apply (fw_one _ [TSym ":"] _ [TNum 2]); [left; reflexivity|]. apply vw_scalar, (sw_int 2). lia.
  - left. reflexivity.
  - apply (wr_field "Vector" (rep "data" 2 KDouble) [XDec true 5 0; XDec false 3 0]
      [TSym ":"; TSym "["; TSym "-"; TFloat 5 0; TSym ","; TNum 3; TSym "]"] [TSym ";"] [] []).
    + right. left. reflexivity.
    + apply (fw_list _ [TSym ":"] _ [TSym "-"; TFloat 5 0; TSym ","; TNum 3; TSym "]"]); [reflexivity|left; reflexivity|].
      apply (ew_more _ _ _ [TSym "-"; TFloat 5 0] [TNum 3; TSym "]"]); [apply vw_scalar, sw_minus_dec|].
      apply (ew_last _ _ [TNum 3]). apply vw_scalar, sw_whole.
    + right. left. reflexivity.
    + apply wr_end.
Qed.

Lemma a_vector_once : once "Vector" [(1, XInt 2); (2, XDec true 5 0); (2, XDec false 3 0)].
Proof.
  split.
  - intros f [<-|[<-|[]]] R; [cbn; lia|discriminate].
  - intros f g o v w [<-|[<-|[]]] G F; discriminate.
Qed.

Ltac lay g s t r := refine (lo_token (txt g) (txt s) t (txt r) _ _ _ _ _);
  [repeat first [apply gap_none | apply gap_space; [reflexivity|]]| |cbn; try tauto; try (split; [reflexivity|discriminate])|].
Ltac digs := repeat match goal with |- _ /\ _ => split end.

Lemma digit1 : forall c d, d < 10 -> code c = 48 + d -> digits [c] d.
Proof. intros c d D C. pose proof (dg_more [] 0 c d dg_none D C) as H. exact H. Qed.

Lemma a_vector_laid : laid_out a_vector a_vector_tokens.
Proof.
  assert (Sy : forall c, In c [":"; "{"; "}"; "<"; ">"; "["; "]"; ","; ";"; "-"]%char -> spells [c] (TSym c)) by (intros; constructor; assumption).
  assert (P1 : forall c : ascii, plain [c]) by (intros c x r E N; injection E as _ <-; congruence).
  lay ""%string "size"%string (word_of "size") ": 2 # both coordinates
data: [-.5e1, 3];"%string; [apply sp_id; [reflexivity|repeat constructor]|].
  lay ""%string ":"%string (TSym ":") " 2 # both coordinates
data: [-.5e1, 3];"%string; [apply Sy; cbn; tauto|].
  lay " "%string "2"%string (TNum 2) " # both coordinates
data: [-.5e1, 3];"%string; [apply sp_num; [apply digit1; [lia|reflexivity]|discriminate|apply P1]|].
  refine (lo_token (txt " # both coordinates
") (txt "data") (word_of "data") (txt ": [-.5e1, 3];") _ _ _ _ _).
  { apply gap_space; [reflexivity|]. apply (gap_comment (txt " both coordinates") (ascii_of_nat 10) []); [repeat constructor|reflexivity|constructor]. }
  { apply sp_id; [reflexivity|repeat constructor]. }
  { split; [reflexivity|discriminate]. }
  lay ""%string ":"%string (TSym ":") " [-.5e1, 3];"%string; [apply Sy; cbn; tauto|].
  lay " "%string "["%string (TSym "[") "-.5e1, 3];"%string; [apply Sy; cbn; tauto|].
  lay ""%string "-"%string (TSym "-") ".5e1, 3];"%string; [apply Sy; cbn; tauto|].
  lay ""%string ".5e1"%string (TFloat 5 0) ", 3];"%string.
  { apply (sp_point_exp [] ["5"]%char 5 ["e"; "1"]%char 1 []); [apply digit1; [lia|reflexivity]|right; discriminate|intros c r E; discriminate| |left; reflexivity].
    apply (ex_plain "e" ["1"]%char 1); [left; reflexivity|apply digit1; [lia|reflexivity]|discriminate]. }
  lay ""%string ","%string (TSym ",") " 3];"%string; [apply Sy; cbn; tauto|].
  lay " "%string "3"%string (TNum 3) "];"%string; [apply sp_num; [apply digit1; [lia|reflexivity]|discriminate|apply P1]|].
  lay ""%string "]"%string (TSym "]") ";"%string; [apply Sy; cbn; tauto|].
  lay ""%string ";"%string (TSym ";") ""%string; [apply Sy; cbn; tauto|]. apply lo_end. constructor.
Qed.

Example C133_reads_example : read_text "Vector" a_vector = ([(1, XInt 2); (2, XDec true 5 0); (2, XDec false 3 0)], true).
Proof. exact (C133_reads "Vector" _ a_vector a_vector_tokens a_vector_laid a_vector_written a_vector_once). Qed.

(** ** The configuration files of the repository *)
Theorem C133_shipped : Forall (fun e => snd (read_text (fst e) (snd e)) = true) shipped.
Proof. repeat constructor; vm_compute; reflexivity. Qed.
Print Assumptions C133_shipped.

Example C133_shipped_values : map (fun e => read_text (fst e) (snd e)) (firstn 2 shipped) =
  [([(1, XStr (txt "Neal8")); (2, XInt 20201124); (3, XInt 1100); (4, XInt 100); (5, XInt 3); (6, XInt 3)], true);
   ([(1, XMsg [(1, XMsg [(1, XInt 0)]); (2, XMsg [(1, XInt 0)]); (3, XDec false 1 (-2)); (4, XDec false 5 0); (5, XInt 5)])], true)].
Proof. vm_compute. reflexivity. Qed.

Lemma once_less : forall t a b, once t (a ++ b) -> once t a.
Proof.
  intros t a b [O1 O2]. split.
  - intros f F R. specialize (O1 f F R). rewrite entries_app, app_length in O1. lia.
  - intros f g o v w F G A B I J. apply (O2 f g o v w F G A B); apply in_or_app; left; assumption.
Qed.

(** ** Mistakes: the message keeps what was read before *)

(* after the fields [m], a word that names no field *)
Theorem C133_unknown_name : forall t m l ts s more, laid_out l (ts ++ TId s :: more) -> written t m ts -> once t m ->
  (forall f, In f (fields t) -> fname f <> string_of_list_ascii s) ->
  read_text t l = (m, false).
Proof.
  intros t m l ts s more L W O N. unfold read_text. rewrite (tokens_ok _ _ L), app_length. cbn [length].
  destruct (proj1 read_written t m ts W [] None (TId s :: more) (S (length ts + S (length more))) O) as (fuel & Lf & E); [split; reflexivity|lia|].
  rewrite E. destruct fuel as [|fuel]; [lia|]. cbn [read_fields app]. unfold field_named.
  destruct (find _ (fields t)) as [f|] eqn:Q; [|reflexivity]. exfalso. apply find_some in Q as [F Q]. apply (N f F). apply String.eqb_eq, Q.
Qed.
Print Assumptions C133_unknown_name.

(* a singular field that is set already, or another member of a oneof *)
Theorem C133_twice : forall t m l ts f more, laid_out l (ts ++ word_of (fname f) :: more) -> written t m ts -> once t m ->
  In f (fields t) -> frep f = false -> (exists v, In (fnum f, v) m /\ v <> XInt 0 /\ v <> XStr [] /\ forall b e, v <> XDec b 0 e) ->
  read_text t l = (m, false).
Proof.
  intros t m l ts f more L W O F R (v & Iv & V1 & V2 & V3). unfold read_text. rewrite (tokens_ok _ _ L), app_length. cbn [length].
  destruct (proj1 read_written t m ts W [] None (word_of (fname f) :: more) (S (length ts + S (length more))) O) as (fuel & Lf & E); [split; reflexivity|lia|].
  rewrite E. destruct fuel as [|fuel]; [lia|]. unfold word_of. cbn [read_fields app]. rewrite name_back, field_named_in by exact F.
  assert (X : has f m = true).
  { unfold has. apply existsb_exists. exists v. split; [apply entries_in, Iv|]. destruct v as [z|b n e|b| |s|x]; cbn; try reflexivity.
    - destruct (Z.eqb_spec z 0); [subst; congruence|reflexivity].
    - destruct (N.eqb_spec n 0); [subst; exfalso; eapply V3; reflexivity|reflexivity].
    - destruct s; [congruence|reflexivity]. }
  rewrite R, X. reflexivity.
Qed.
Print Assumptions C133_twice.

Theorem C133_oneof_twice : forall t m l ts f g o v more, laid_out l (ts ++ word_of (fname f) :: more) -> written t m ts -> once t m ->
  In f (fields t) -> In g (fields t) -> fone f = Some o -> fone g = Some o -> In (fnum g, XMsg v) m ->
  read_text t l = (m, false).
Proof.
  intros t m l ts f g o v more L W O F G A B Iv. unfold read_text. rewrite (tokens_ok _ _ L), app_length. cbn [length].
  destruct (proj1 read_written t m ts W [] None (word_of (fname f) :: more) (S (length ts + S (length more))) O) as (fuel & Lf & E); [split; reflexivity|lia|].
  rewrite E. destruct fuel as [|fuel]; [lia|]. unfold word_of. cbn [read_fields app]. rewrite name_back, field_named_in by exact F.
  destruct (negb (frep f) && has f m); [reflexivity|].
  assert (X : one_taken t f m = true).
  { unfold one_taken. rewrite A. apply existsb_exists. exists g. split; [exact G|]. rewrite B, String.eqb_refl. cbn [andb]. unfold has. apply existsb_exists.
    exists (XMsg v). split; [apply entries_in, Iv|reflexivity]. }
  rewrite X. reflexivity.
Qed.
Print Assumptions C133_oneof_twice.

(* a nested message that is closed by the wrong character *)
Theorem C133_wrong_bracket : forall t m l ts f t' m' ts' c o x more, laid_out l (ts ++ word_of (fname f) :: c ++ TSym o :: ts' ++ TSym x :: more) ->
  written t m ts -> In f (fields t) -> fkind f = KMsg t' -> once t (m ++ [(fnum f, XMsg m')]) -> colon_written f c ->
  written t' m' ts' -> once t' m' -> (o = "{"%char /\ x = ">"%char) \/ (o = "<"%char /\ x = "}"%char) ->
  read_text t l = (m ++ [(fnum f, XMsg m')], false).
Proof.
  intros t m l ts f t' m' ts' c o x more L W F K O C W' O' B. unfold read_text. rewrite (tokens_ok _ _ L).
  assert (Om : once t m) by exact (once_less t m [(fnum f, XMsg m')] O).
  set (tail := word_of (fname f) :: c ++ TSym o :: ts' ++ TSym x :: more).
  destruct (proj1 read_written t m ts W [] None tail (S (length (ts ++ tail))) Om) as (fuel & Lf & E); [split; reflexivity|rewrite app_length; lia|].
  rewrite E. assert (Lt : (length ts' + 3 <= length tail)%nat).
  { unfold tail. cbn [length]. rewrite app_length. cbn [length]. rewrite app_length. cbn [length]. lia. }
  rewrite app_length in Lf. clear E. cbn [app]. unfold tail. destruct fuel as [|fuel]; [lia|]. unfold word_of. cbn [read_fields]. rewrite name_back, field_named_in by exact F.
  assert (NR : frep f = true \/ entries (fnum f) m = []).
  { destruct (frep f) eqn:R; [left; reflexivity|right]. apply (once_front t f [XMsg m'] m [] F); [rewrite app_nil_r; exact O|discriminate|exact R]. }
  assert (H1 : negb (frep f) && has f m = false).
  { destruct NR as [R|R]; [rewrite R; reflexivity|]. rewrite (has_none f m R). apply andb_false_r. }
  assert (H2 : one_taken t f m = false).
  { apply (not_taken t f [XMsg m'] m [] F); [rewrite app_nil_r; exact O|discriminate|apply (oneof_single t f F)]. }
  rewrite H1, H2. assert (H3 : colon (fkind f) (c ++ TSym o :: ts' ++ TSym x :: more) = Some (TSym o :: ts' ++ TSym x :: more)).
  { destruct C as [->|[-> M]]; [reflexivity|]. cbn [app colon]. rewrite M. destruct B as [[-> _]|[-> _]]; reflexivity. }
  rewrite H3.
  assert (H4 : forall cl, cl = 62 \/ cl = 125 -> sym cl (TSym x) = false ->
    read_fields fuel t' (Some cl) [] (ts' ++ TSym x :: more) = (m', None)).
  { intros cl Hcl S. destruct (proj1 read_written t' m' ts' W' [] (Some cl) (TSym x :: more) fuel O') as (g & Lg & E);
      [destruct B as [[_ ->]|[_ ->]]; split; reflexivity|lia|].
    rewrite E. destruct g as [|g]; [lia|]. cbn [app read_fields]. rewrite S. destruct B as [[_ ->]|[_ ->]]; reflexivity. }
  unfold values. assert (H5 : frep f && sym 91 (TSym o) = false) by (destruct B as [[-> _]|[-> _]]; apply andb_false_r). rewrite H5.
  unfold one_value. rewrite K. destruct B as [[-> ->]|[-> ->]].
  - change (sym 123 (TSym "{")) with true. cbn iota. rewrite (H4 125) by (auto; reflexivity). rewrite (set_new f _ m NR). reflexivity.
  - change (sym 123 (TSym "<")) with false. change (sym 60 (TSym "<")) with true. cbn iota. rewrite (H4 62) by (auto; reflexivity). rewrite (set_new f _ m NR). reflexivity.
Qed.
Print Assumptions C133_wrong_bracket.

Example C133_wrong_bracket_example : read_text "DPPrior" (txt "fixed_value { totalmass: 1 > ") = ([(1, XMsg [(1, XDec false 1 0)])], false).
Proof. vm_compute. reflexivity. Qed.

Example C133_infinite : read_text "Vector" (txt "data: [INF, -Infinity, NaN, nanx]") = ([(2, XInf false); (2, XInf true); (2, XNan)], false).
Proof. vm_compute. reflexivity. Qed.

Example C133_mistakes :
  read_text "DPPrior" (txt "fixed_value { totalmass: 1 } gama_prior { } ") = ([(1, XMsg [(1, XDec false 1 0)])], false) /\
  read_text "DPPrior" (txt "fixed_value { totalmass: 1 } fixed_value { } ") = ([(1, XMsg [(1, XDec false 1 0)])], false) /\
  read_text "DPPrior" (txt "fixed_value { totalmass: 1 } gamma_prior { } ") = ([(1, XMsg [(1, XDec false 1 0)])], false) /\
  read_text "Matrix" (txt "rows: 2.0") = ([], false) /\
  read_text "Matrix" (txt "rows 2") = ([], false).
Proof. vm_compute. repeat split; reflexivity. Qed.

(** ** A wrong configuration does not stop the program: after a misspelt name the
    settings that follow are silently the defaults, here no iterations at all *)
Theorem C133_mistake_stops_refuted : exists l m msg,
  read_proto_from_file "AlgorithmParams" (Some l) = (m, msg) /\ msg <> EmptyString /\
  entries (field_number "AlgorithmParams" "algo_id") m = [XStr (txt "Neal2")] /\
  entries (field_number "AlgorithmParams" "iterations") m = [] /\
  l = txt "algo_id: 'Neal2' rng_sed: 1 iterations: 1000 burnin: 100 init_num_clusters: 3".
Proof.
  eexists; eexists; eexists. split; [|split; [|split; [|split; [|reflexivity]]]]; [vm_compute; reflexivity|discriminate|reflexivity|reflexivity].
Qed.
Print Assumptions C133_mistake_stops_refuted.

(** ** A file that does not exist is an empty message, without any report *)
Theorem C133_missing_file : forall t, read_proto_from_file t None = ([], EmptyString).
Proof. intros t. reflexivity. Qed.
Print Assumptions C133_missing_file.

(** ** A number given twice is not noticed when the first one is zero *)
Theorem C133_zero_twice_refuted : exists l, read_text "Vector" l = ([(1, XInt 3)], true) /\ l = txt "size: 0 size: 3" /\
  read_text "Vector" (txt "size: 3 size: 0") = ([(1, XInt 3)], false).
Proof. eexists. split; [|split; [reflexivity|]]; vm_compute; reflexivity. Qed.
Print Assumptions C133_zero_twice_refuted.
