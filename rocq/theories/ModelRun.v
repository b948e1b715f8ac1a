(** Model of /repo/pvfactors/run.py and /repo/pvfactors/report.py (definitions only). *)
From Coq Require Import Reals List Bool Arith ZArith String.
From Verif Require Import Num ModelTs ModelGeom ModelVF ModelParams ModelLinalg ModelIrr ModelAOI ModelEngine.
Import ListNotations.
Open Scope R_scope.

(* --------------------------------------------------------------------- report.py *)

(** A report: dictionary of lists of values (report.py:18-26). *)
Definition report : Type := list (string * list R).

(** [pvarray.ts_pvrows[k].front.get_param_weighted(name)], or [back] (report.py:18-26);
    [k] is not negative. *)
Definition row_side_weighted (arr : pvarray) (k : nat) (back : bool) (name : string) : result (ts R) :=
  match pv_fitted arr with
  | None => Err AttributeError
  | Some a =>
      match nth_error (ft_rows a) k with
      | None => Err IndexError
      | Some row => side_param_weighted (pv_store arr) (if back then row_back row else row_front row) name
      end
  end.

(** [.tolist()] of an array with one value per timestep, report.py:18-26. *)
Definition to_list (arr : pvarray) (v : ts R) : list R :=
  match pv_fitted arr with
  | None => []
  | Some a => map v (seq 0 (ft_n_states a))
  end.

(** [example_fn_build_report], report.py:4-26. *)
Definition example_fn_build_report (arr : pvarray) : result report :=
  do qf <- row_side_weighted arr 1 false "qinc";
  do qb <- row_side_weighted arr 1 true "qinc";
  do jf <- row_side_weighted arr 1 false "isotropic";
  do jb <- row_side_weighted arr 1 true "isotropic";
  Ok [("qinc_front", to_list arr qf); ("qinc_back", to_list arr qb);
      ("iso_front", to_list arr jf); ("iso_back", to_list arr jb)]%string.

(** [other_report[key]], report.py:70. *)
Fixpoint lookup (r : report) (k : string) : result (list R) :=
  match r with
  | [] => Err KeyError
  | (k', v) :: r => if String.eqb k k' then Ok v else lookup r k
  end.

(** Loop over the keys of the first report, report.py:69-70. The keys are those of the
    report being extended, in order. *)
Definition extend_report (r other : report) : result report :=
  map_result (fun kv => do v <- lookup other (fst kv); Ok (fst kv, snd kv ++ v)) r.

(** [ExampleReportBuilder.merge], report.py:51-71. *)
Definition merge_reports (reports : list report) : result report :=
  match reports with
  | [] => Err IndexError
  | r :: others => fold_result extend_report others r
  end.

(* ------------------------------------------------------------------------ run.py *)

(** What the two functions are given besides the timeseries (run.py:19-29, 117-127):
    parameters of the PV array, parameters of the irradiance model, arguments of the
    calculator, fast mode indices. The classes are the default ones. *)
Record simulation : Type := Simulation {
  si_array : pvarray_params;
  si_irr : irr_model;
  si_faoi_front : option (R -> R);
  si_faoi_back : option (R -> R);
  si_n_sections : nat;
  si_fast_row : option nat;
  si_fast_seg : option nat
}.

(** The new engine, run.py:95-104. *)
Definition new_engine (s : simulation) : engine :=
  engine_init (pvarray_init (si_array s) [])
    (Some (calculator_init (si_faoi_front s) (si_faoi_back s) (si_n_sections s)))
    (Some (si_irr s)) (si_fast_row s) (si_fast_seg s).

(** [run_timeseries_engine], run.py:19-114, with a report building function. *)
Definition run_timeseries_engine (P : pvlib) (build : pvarray -> result report)
    (s : simulation) (i : raw_inputs) : result report :=
  do e <- engine_fit P (new_engine s) i;
  do e' <- match si_fast_row s with
           | None => run_full_mode e
           | Some _ => run_fast_mode e None None
           end;
  build (en_array e').

(** [np.array_split], run.py:211-216, 228: sizes of the [k] parts of an array of [n]
    values, where they start, and the part [j]. A float has no length: [TypeError]. *)
Definition section_sizes (n k : nat) : list nat :=
  repeat (S (n / k)) (n mod k) ++ repeat (n / k)%nat (k - n mod k).
Definition div_point (n k j : nat) : nat := list_sum (firstn j (section_sizes n k)).
Definition fold_of {A : Type} (k j : nat) (x : num A) : result (num A) :=
  match x with
  | NScalar _ => Err TypeError
  | NArray n a =>
      Ok (NArray (div_point n k (S j) - div_point n k j) (fun t => a (div_point n k j + t)%nat))
  end.

(** The arguments of process [j], run.py:211-228. *)
Definition fold_inputs (k j : nat) (i : raw_inputs) : result raw_inputs :=
  do tm <- fold_of k j (ri_time i);
  do az <- fold_of k j (ri_azimuth i);
  do tilt <- fold_of k j (ri_tilt i);
  do zen <- fold_of k j (ri_zenith i);
  do saz <- fold_of k j (ri_solar_azimuth i);
  do dni <- fold_of k j (ri_dni i);
  do dhi <- fold_of k j (ri_dhi i);
  do alb <- fold_of k j (ri_albedo i);
  do ghi <- match ri_ghi i with
            | None => Ok None
            | Some g => do g' <- fold_of k j g; Ok (Some g')
            end;
  Ok (RawInputs tm dni dhi zen saz tilt az alb ghi).

(** [albedo * np.ones(len(dni))], run.py:199-200. *)
Definition iterable_albedo (i : raw_inputs) : result raw_inputs :=
  match ri_albedo i, ri_dni i with
  | NScalar r, NArray n _ =>
      Ok (RawInputs (ri_time i) (ri_dni i) (ri_dhi i) (ri_zenith i) (ri_solar_azimuth i) (ri_tilt i)
            (ri_azimuth i) (NArray n (fun _ => r * 1)) (ri_ghi i))
  | NScalar _, NScalar _ => Err TypeError
  | NArray _ _, _ => Ok i
  end.

(** Number of workers, run.py:195-196; [np.array_split] needs a positive number. *)
Definition n_workers (n_processes : Z) (cpu_count : nat) : result nat :=
  let n := if Z.eqb n_processes (-1) then Z.of_nat cpu_count else n_processes in
  if Z.leb n 0 then Err ValueError else Ok (Z.to_nat n).

(** [_run_serially], run.py:261-298, for process [j]. *)
Definition run_serially (P : pvlib) (build : pvarray -> result report) (s : simulation)
    (k : nat) (i : raw_inputs) (j : nat) : result (report * nat) :=
  do f <- fold_inputs k j i;
  do r <- run_timeseries_engine P build s f;
  Ok (r, j).

(** [sorted(indexed_reports, key=lambda tup: tup[1])], run.py:250 (a stable sort). *)
Fixpoint insert_report (x : report * nat) (l : list (report * nat)) : list (report * nat) :=
  match l with
  | [] => [x]
  | y :: r => if Nat.leb (snd x) (snd y) then x :: l else y :: insert_report x r
  end.
Definition sort_reports (l : list (report * nat)) : list (report * nat) :=
  fold_right insert_report [] l.

(** [run_parallel_engine], run.py:117-257. The workers are run in the order [order],
    which is any arrangement of the processes ([pool.map] itself gives the reports back in
    the order of the processes: a particular case). If one fails, the call does. *)
Definition run_parallel_engine (P : pvlib) (build : pvarray -> result report)
    (merge : list report -> result report) (s : simulation) (n_processes : Z) (cpu_count : nat)
    (order : list nat) (i : raw_inputs) : result report :=
  do k <- n_workers n_processes cpu_count;
  do i <- iterable_albedo i;
  do indexed <- map_result (run_serially P build s k i) order;
  merge (map fst (sort_reports indexed)).
