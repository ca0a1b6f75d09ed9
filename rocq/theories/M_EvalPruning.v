(** The command-line tool that prunes a model for benchmarking.
    Source: sparsity/keras/tools/evaluate_pruning.py (and the flag of check_sparsity_m_by_n.py). *)
From Coq Require Import String Ascii DecimalString.
From Verif Require Import Base M_Num M_Tensor M_Mask M_PruneWrapper M_Tools.
Open Scope string_scope.
Open Scope list_scope.
Open Scope Z_scope.

(** ** Python's int(str) on ASCII text (documented): surrounding blanks, one sign, decimal digits with single underscores
    between digits.  Simplification: non-ASCII digits and blanks are not modelled. *)
Definition blank (c : ascii) : bool := let n := nat_of_ascii c in ((n =? 32) || ((9 <=? n) && (n <=? 13)))%nat.
Definition digit (c : ascii) : option Z :=
  let n := nat_of_ascii c in if ((48 <=? n) && (n <=? 57))%nat then Some (Z.of_nat (n - 48)) else None.
Fixpoint all_blank (s : string) : bool := match s with EmptyString => true | String c r => (blank c && all_blank r)%bool end.
(** The digits; [after]: the previous character was a digit. *)
Fixpoint int_digits (after : bool) (acc : Z) (s : string) : res Z :=
  match s with
  | EmptyString => if after then Ok acc else Err ValueError
  | String c r =>
      match digit c with
      | Some d => int_digits true (10 * acc + d) r
      | None =>
          if negb after then Err ValueError
          else if Ascii.eqb c "_"%char then int_digits false acc r
          else if all_blank s then Ok acc else Err ValueError
      end
  end.
Definition int_signed (s : string) : res Z :=
  match s with
  | String "-" r => do n <- int_digits false 0 r ;; Ok (- n)
  | String "+" r => int_digits false 0 r
  | _ => int_digits false 0 s
  end.
Fixpoint py_int (s : string) : res Z :=
  match s with
  | String c r => if blank c then py_int r else int_signed s
  | EmptyString => int_signed s
  end.
(** [s.split(',')]: the first field and the others. *)
Fixpoint split_comma (s : string) : string * list string :=
  match s with
  | EmptyString => (EmptyString, [])
  | String c r => let '(a, l) := split_comma r in if Ascii.eqb c ","%char then (EmptyString, a :: l) else (String c a, l)
  end.

(** evaluate_pruning.py:55-57 [_parse_block_size_flag]: unpacking any other number of fields raises ValueError. *)
Definition parse_block_size_flag (value : string) : res (Z * Z) :=
  match split_comma value with
  | (height_str, [weight_str]) => do h <- py_int height_str ;; do w <- py_int weight_str ;; Ok (h, w)
  | _ => Err ValueError
  end.
(** evaluate_pruning.py:60-66 [_check_block_size]: true, or the flag is refused. *)
Definition check_block_size (value : string) : bool := is_ok (parse_block_size_flag value).
(** evaluate_pruning.py:43-48: the sparsity flag's bounds. *)
Definition check_sparsity (s : Q) : bool := (Qle_bool 0 s && Qle_bool s 1)%bool.

(** [os.path.join] (documented, POSIX; the second part is relative here). *)
Definition join (dir name : string) : string :=
  match dir with
  | EmptyString => name
  | _ => if String.eqb (substring (String.length dir - 1) 1 dir) "/" then (dir ++ name)%string else (dir ++ "/" ++ name)%string
  end.
(** '%d' of an int. *)
Definition show (z : Z) : string := NilEmpty.string_of_int (Z.to_int z).
(** '%.2f' of a non-negative number: correctly rounded to hundredths, ties to even. *)
Definition hundredths (s : Q) : Z := round_half_even (inject_Z 100 * s).
Definition show_fixed2 (s : Q) : string :=
  let n := hundredths s in (show (n / 100) ++ "." ++ show (n mod 100 / 10) ++ show (n mod 10))%string.
(** evaluate_pruning.py:90-93 [pruned_model_filename] *)
Definition pruned_model_filename (sparsity : Q) (block_size : Z * Z) : string :=
  ("pruned_model_sparsity_" ++ show_fixed2 sparsity ++ "_block_" ++ show (fst block_size) ++ "x" ++ show (snd block_size) ++ ".tflite")%string.

(** ** The tool.  A model is the prunable weights of its prunable layers (as in M_Tools); [B]: file contents.  The file
    system is a map from path to contents; directories and disk errors are not modelled. *)
Definition kmodel := list (list (tensor Q)).
Section Tool.
Variable B : Type.
(** An empty file. *)
Variable empty : B.
(** keras.models.load_model *)
Variable load_model : string -> res kmodel.
(** TFLiteConverter.from_keras_model(...).convert(): may raise. *)
Variable convert : kmodel -> res B.
(** evaluate_pruning.py:78-87 [get_gzipped_size]: the size in bytes of a zip archive holding the file. *)
Variable gzipped_size : string -> B -> Z.

Definition files := string -> option B.
Definition write (fs : files) (path : string) (b : B) : files := fun p => if String.eqb p path then Some b else fs p.
(** evaluate_pruning.py:69-75 [convert_to_tflite]: the file is opened (and emptied) before convert() runs. *)
Definition convert_to_tflite (m : kmodel) (path : string) (fs : files) : files * res unit :=
  let fs := write fs path empty in
  match convert m with
  | Ok b => (write fs path b, Ok tt)
  | Err e => (fs, Err e)
  end.
(** sparsity_tooling.prune_for_benchmark with a block size of any sign, then strip_pruning: the weights left.  A window
    that is not positive is refused by TensorFlow's pooling op as soon as some weight is pruned with it. *)
Definition prune_and_strip (m : kmodel) (sparsity : Q) (block : Z * Z) : res kmodel :=
  let '(h, w) := block in
  if ((h <=? 0) || (w <=? 0))%bool then
    if forallb (fun ws => match ws with [] => true | _ => false end) m then Ok m else Err InvalidArgument
  else do ls <- prune_for_benchmark m sparsity [Z.to_nat h; Z.to_nat w] ;; Ok (map (fun l => map pv_w (pl_vars l)) ls).
(** The three printed numbers: sizes of the unpruned and the pruned model in MiB (before the '%.2f'), the difference in
    per cent ('%d' drops the fraction).  Division by zero is not modelled: an archive is never empty. *)
Record summary := mkSummary { s_unpruned : Q; s_pruned : Q; s_diff : Z }.
Definition truncate (x : Q) : Z := Z.quot (Qnum x) (Zpos (Qden x)).
(** evaluate_pruning.py:96-137 [run] *)
Definition run (input_model_path output_dir : string) (target_sparsity : Q) (block_size : Z * Z) (fs : files) : files * res summary :=
  match load_model input_model_path with
  | Err e => (fs, Err e)
  | Ok input_model =>
      let unpruned_path := join output_dir "unpruned_model.tflite" in
      let pruned_path := join output_dir (pruned_model_filename target_sparsity block_size) in
      match convert_to_tflite input_model unpruned_path fs with
      | (fs, Err e) => (fs, Err e)
      | (fs, Ok _) =>
          match prune_and_strip input_model target_sparsity block_size with
          | Err e => (fs, Err e)
          | Ok stripped_model =>
              match convert_to_tflite stripped_model pruned_path fs with
              | (fs, Err e) => (fs, Err e)
              | (fs, Ok _) =>
                  match fs unpruned_path, fs pruned_path with
                  | Some u, Some p =>
                      let su := gzipped_size unpruned_path u in let sp := gzipped_size pruned_path p in
                      (fs, Ok (mkSummary (inject_Z su / inject_Z (2 ^ 20)) (inject_Z sp / inject_Z (2 ^ 20))
                                         (truncate (inject_Z (100 * (sp - su)) / inject_Z su))))
                  | _, _ => (fs, Err ValueError)
                  end
              end
          end
      end
  end.
(** evaluate_pruning.py:134-139 [main] with absl's flag checks first: a refused flag stops the program before it runs. *)
Definition tool (model output_dir : string) (sparsity : Q) (block : string) (fs : files) : files * res summary :=
  if negb (check_sparsity sparsity && check_block_size block) then (fs, Err ValueError)
  else match parse_block_size_flag block with
       | Err e => (fs, Err e)
       | Ok b => run model output_dir sparsity b fs
       end.
End Tool.

(** check_sparsity_m_by_n.py:63-68: the first two fields of the list flag, as integers; [m_by_n[0]], [m_by_n[1]] at line
    85 (IndexError) happen only if some tensor is reported. *)
Definition parse_m_by_n (fields : list string) : res (list Z) := mapM py_int (firstn 2 fields).
