(** * Matrix, file, cluster-estimate and factory utilities (src/utils, src/runtime). *)
From Coq Require Import String Ascii.
From Coq Require Import List Arith Bool Reals ZArith.
From Verif Require Import Base.
Import ListNotations.
Set Implicit Arguments.

(** ** Matrices

    A matrix is its number of columns and its rows; a cell of a freshly
    allocated Eigen matrix is [None] until it is written. *)
Record mat (A : Type) : Type := mkMat { m_nc : nat; m_rows : list (list A) }.
Arguments mkMat {A}.
Definition m_nr {A} (m : mat A) : nat := length (m_rows m).
Definition well_shaped {A} (m : mat A) : Prop := forall r, In r (m_rows m) -> length r = m_nc m.

Section Matrices.
  Variable A : Type.
  Implicit Types m a b : mat A.

  (** [out.block(begin, 0, rows.size(), ncols) = rows], row by row. *)
  Fixpoint write_rows (out : list (option (list A))) (begin : nat) (rows : list (list A)) : res (list (option (list A))) :=
    match rows with
    | [] => Ok out
    | r :: t => out' <- set_at out begin (Some r) ;; write_rows out' (S begin) t
    end.

  (** eigen_utils.cc:9-36. *)
  Definition vstack (mats : list (mat A)) : res (nat * list (option (list A))) :=
    m0 <- at_ mats 0 ;;
    let ncols := m_nc m0 in
    if forallb (fun m => m_nc m =? ncols) mats then
      let nrows := fold_left (fun curr m => curr + m_nr m) mats 0 in
      '(out, _) <- rfold (fun '(out, begin) m =>
                     out' <- write_rows out begin (m_rows m) ;; Ok (out', begin + m_nr m))
                   mats (repeat None nrows, 0) ;;
      Ok (ncols, out)
    else Throw "Expected all elements to have the same number of columns".

  (** eigen_utils.cc:59-78. *)
  Definition append_by_row a b : res (mat A) :=
    if m_nr a =? 0 then Ok b
    else if m_nr b =? 0 then Ok a
    else if m_nc a =? m_nc b then Ok (mkMat (m_nc a) (m_rows a ++ m_rows b))
    else Throw "Expected a and b to have the same number of columns".

  (** eigen_utils.cc:38-57, [conservativeResize] keeps the old rows. *)
  Definition append_by_row_inplace a b : res (nat * list (option (list A))) :=
    if m_nr a =? 0 then Ok (m_nc b, map Some (m_rows b))
    else if m_nr b =? 0 then Ok (m_nc a, map Some (m_rows a))
    else if m_nc a =? m_nc b then
      out <- write_rows (map Some (m_rows a) ++ repeat None (m_nr b)) (m_nr a) (m_rows b) ;;
      Ok (m_nc a, out)
    else Throw "Expected a and b to have the same number of columns".

  (** eigen_utils.h:34-41; assigning a vector of another size to a row is an
      [eigen_assert], undefined without it. *)
  Definition stack_vectors (rows : list (list A)) : res (nat * list (option (list A))) :=
    r0 <- at_ rows 0 ;;
    let ncols := length r0 in
    out <- rfold (fun out i =>
             r <- at_ rows i ;;
             if length r =? ncols then set_at out i (Some r) else UB)
           (seq 0 (length rows)) (repeat None (length rows)) ;;
    Ok (ncols, out).

  (** eigen_utils.cc:90-104 on the two axes. *)
  Definition grid_2d (xgrid ygrid : list A) : res (list (option (A * A))) :=
    let nx := length xgrid in
    let ny := length ygrid in
    rfold (fun out i =>
      rfold (fun out j =>
        x <- at_ xgrid i ;; y <- at_ ygrid j ;;
        set_at out (i * nx + j) (Some (x, y)))
      (seq 0 ny) out)
    (seq 0 nx) (repeat None (nx * ny)).

  (** ** Matrix messages *)
  Variable d : A.
  Definition cell m (i j : nat) : A := nth j (nth i (m_rows m) []) d.

  (** proto/matrix.proto. *)
  Record vec_msg : Type := mkVecMsg { v_size : nat; v_data : list A }.
  Record mat_msg : Type := mkMatMsg { p_rows : nat; p_cols : nat; p_rowmajor : bool; p_data : list A }.

  (** proto_utils.cc:11-15 and 25-33. *)
  Definition vec_to_proto (v : list A) : vec_msg := mkVecMsg (length v) v.
  Definition vec_to_eigen (p : vec_msg) : res (list A) :=
    if v_size p =? 0 then Ok [] else rmap (fun i => at_ (v_data p) i) (seq 0 (v_size p)).

  (** proto_utils.cc:17-23; Eigen stores by columns. *)
  Definition mat_to_proto m : mat_msg :=
    mkMatMsg (m_nr m) (m_nc m) false
      (flat_map (fun j => map (fun i => cell m i j) (seq 0 (m_nr m))) (seq 0 (m_nc m))).
  (** proto_utils.cc:35-50. *)
  Definition mat_to_eigen (p : mat_msg) : res (mat A) :=
    if (0 <? p_rows p) && (0 <? p_cols p) then
      rows <- rmap (fun i => rmap (fun j =>
                at_ (p_data p) (if p_rowmajor p then i * p_cols p + j else j * p_rows p + i))
                (seq 0 (p_cols p))) (seq 0 (p_rows p)) ;;
      Ok (mkMat (p_cols p) rows)
    else Ok (mkMat 0 []).
End Matrices.

(** ** Text files *)

(** Repeated [std::getline] with a delimiter until it fails. *)
Fixpoint tokens (dl : ascii) (s : list ascii) : list (list ascii) :=
  match s with
  | [] => []
  | c :: r =>
      if Ascii.eqb c dl then [] :: tokens dl r
      else match tokens dl r with
           | [] => [[c]]
           | t :: ts => (c :: t) :: ts
           end
  end.

Definition newline : ascii := "010"%char.

Section Csv.
  Variable A : Type.
  (** [std::stof]: [None] when it throws. *)
  Variable stof : list ascii -> option A.
  Variable show : A -> list ascii.
  Variable d : A.

  (** io_utils.cc:18-60; [None]: the file cannot be opened.  Cell (i, j) of the
      result is at [j * rows + i]. *)
  Definition read_matrix (file : option (list ascii)) (delim : ascii) : res (nat * nat * list (option A)) :=
    match file with
    | None => Throw "File does not exist"
    | Some text =>
        let lines := tokens newline text in
        let rows := length lines in
        let cols := match lines with [] => 0 | l :: _ => length (tokens delim l) end in
        '(m, _) <- rfold (fun '(m, i) line =>
              '(m', _) <- rfold (fun '(m, j) entry =>
                    match stof entry with
                    | None => Throw "stof"
                    | Some v => m' <- set_at m (j * rows + i) (Some v) ;; Ok (m', S j)
                    end) (tokens delim line) (m, 0) ;;
              Ok (m', S i)) lines (repeat None (rows * cols), 0) ;;
        Ok (rows, cols, m)
    end.

  Definition join (sep : ascii) (l : list (list ascii)) : list ascii :=
    match l with [] => [] | x :: r => x ++ flat_map (fun y => sep :: y) r end.
  (** io_utils.cc:62-71. *)
  Definition write_matrix (m : mat A) (delim : ascii) : list ascii :=
    join newline (map (fun r => join delim (map show r)) (m_rows m)).
End Csv.

(** ** Cluster estimates

    Rows are iterations, columns observations. *)
Section Clusters.
  Local Open Scope R_scope.
  Definition al (chain : list (list Z)) (k i : nat) : Z := nth i (nth k chain []) 0%Z.
  Definition n_data (chain : list (list Z)) : nat := length (nth 0 chain []).

  (** cluster_utils.cc:9-21: [mean_diss(i, j)]; only the strict lower triangle
      is filled. *)
  Definition similarity (chain : list (list Z)) (i j : nat) : R :=
    (if Nat.ltb j i
     then INR (length (filter (fun k => Z.eqb (al chain k i - al chain k j) 0) (seq 0 (length chain))))
     else 0) / INR (length chain).

  (** cluster_utils.cc:40-46: the error of iteration [k] added to what
      [errors(k)] held before. *)
  Definition error_of (chain : list (list Z)) (k : nat) (e0 : R) : R :=
    fold_left (fun e i =>
      fold_left (fun e j =>
        let x := if Z.eqb (al chain k i) (al chain k j) then 1 else 0 in
        e + (x - similarity chain i j) * (x - similarity chain i j))
      (seq 0 i) e)
    (seq 0 (n_data chain)) e0.

  (** [minCoeff(&ibest)]: the first smallest; undefined on no coefficients. *)
  Fixpoint min_index (l : list R) : res (nat * R) :=
    match l with
    | [] => UB
    | [x] => Ok (0%nat, x)
    | x :: t => '(i, v) <- min_index t ;; if Rle_dec x v then Ok (0%nat, x) else Ok (S i, v)
    end.

  (** cluster_utils.cc:23-58; [junk] is what [errors] holds when allocated. *)
  Definition cluster_estimate (chain : list (list Z)) (junk : list R) : res (list Z) :=
    let errors := map (fun k => error_of chain k (nth k junk 0)) (seq 0 (length chain)) in
    '(ibest, _) <- min_index errors ;;
    at_ chain ibest.
End Clusters.

(** ** Covariates (covariates_getter.h:14-22) *)
Definition covariate_row {A} (covs : mat A) (i : nat) : res (list A) :=
  if m_nc covs =? 0 then Ok []
  else if m_nr covs =? 1 then at_ (m_rows covs) 0
  else at_ (m_rows covs) i.

(** ** Factory (runtime/factory.h)

    Identifiers are enum values; [names] maps the names known to the enum
    descriptor to their values. *)
Section Factory.
  Variable Obj : Type.
  Definition storage : Type := list (nat * Obj).
  Fixpoint find_id (id : nat) (s : storage) : option Obj :=
    match s with [] => None | (k, b) :: r => if k =? id then Some b else find_id id r end.
  (** factory.h:81-83, [std::map::insert] keeps an existing entry. *)
  Definition add_builder (id : nat) (b : Obj) (s : storage) : storage :=
    match find_id id s with Some _ => s | None => (id, b) :: s end.
  (** factory.h:52-62. *)
  Definition create_object (id : nat) (s : storage) : res Obj :=
    match find_id id s with Some b => Ok b | None => Throw "Factory identifier not found" end.
  (** factory.h:96-98. *)
  Definition check_existence (id : nat) (s : storage) : bool :=
    match find_id id s with Some _ => true | None => false end.
  (** factory.h:112-117: for an unknown name the identifier keeps the
      indeterminate value [junk]. *)
  Definition name_to_id (names : list (string * nat)) (junk : nat) (name : string) : nat :=
    match find (fun p => String.eqb (fst p) name) names with Some (_, id) => id | None => junk end.
  (** factory.h:67-76. *)
  Definition create_by_name (names : list (string * nat)) (junk : nat) (name : string) (s : storage) : res Obj :=
    match create_object (name_to_id names junk name) s with
    | Throw _ => Throw "No identifier found for name"
    | r => r
    end.
End Factory.
