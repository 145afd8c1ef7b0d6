(** How Python looks names up in a function body, and the bodies of lyman_alpha_coupling.py and of the
    class Bispectrum as reads and bindings of names. Which way a test goes, how often a loop runs and
    whether an operation raises is decided by an oracle, so that a body is run on all inputs at once. *)
From Coq Require Import String List Bool Arith.
Import ListNotations.
Local Open Scope string_scope.
Local Open Scope list_scope.

(** * A body *)
(** [Do l reads writes]: evaluate the names [reads] in order, do something that may raise, bind [writes].
    [If l reads a b]; [For l reads target body], also for [while]; [Give reads]: return.
    [Run l reads writes params body]: call of a function of the same module, all of whose parameters are given. *)
Inductive stmt :=
| Do (l : string) (reads writes : list string)
| If (l : string) (reads : list string) (a b : list stmt)
| For (l : string) (reads target : list string) (body : list stmt)
| Give (reads : list string)
| Run (l : string) (reads writes params : list string) (body : list stmt).

(** The names a body binds: they are local to it everywhere (Python reference, "Naming and binding"). *)
Fixpoint binds (s : stmt) : list string :=
  match s with
  | Do _ _ w => w
  | If _ _ a b => flat_map binds a ++ flat_map binds b
  | For _ _ t body => t ++ flat_map binds body
  | Give _ => []
  | Run _ _ w _ _ => w
  end.
Record func := Func { params : list string; body : list stmt }.
Definition locals (f : func) : list string := params f ++ flat_map binds (body f).
Definition mem (x : string) (l : list string) : bool := existsb (String.eqb x) l.

(** * Running *)
Inductive exc := NameError | UnboundLocalError | Other (e : string).
(** [Next bound]: the end of the statement, with the local names bound by then. *)
Inductive result := Next (bound : list string) | Returned | Raised (e : exc).
(** [at_ ] is the list of the numbers of the iterations the statement is in, and of the calls. *)
Record oracle := Oracle { test : string -> list nat -> bool; times : string -> list nat -> nat; fails : string -> list nat -> option string }.

(** The first name that cannot be read. *)
Fixpoint look (globals loc bound reads : list string) : option exc :=
  match reads with
  | [] => None
  | x :: r =>
      if mem x loc then if mem x bound then look globals loc bound r else Some UnboundLocalError
      else if mem x globals then look globals loc bound r else Some NameError
  end.
(** The iterations of a loop: [n] are left, number [i] is next. *)
Fixpoint iterate (step : nat -> list string -> result) (n i : nat) (bound : list string) : result :=
  match n with
  | O => Next bound
  | S n' => match step i bound with Next b => iterate step n' (S i) b | r => r end
  end.
Fixpoint exec (globals : list string) (o : oracle) (s : stmt) (loc : list string) (at_ : list nat) (bound : list string) : result :=
  let fix block (ss : list stmt) (loc : list string) (at_ : list nat) (bound : list string) : result :=
    match ss with
    | [] => Next bound
    | s :: r => match exec globals o s loc at_ bound with Next b => block r loc at_ b | e => e end
    end in
  match s with
  | Do l reads writes =>
      match look globals loc bound reads with
      | Some e => Raised e
      | None => match fails o l at_ with Some e => Raised (Other e) | None => Next (writes ++ bound) end
      end
  | If l reads a b =>
      match look globals loc bound reads with
      | Some e => Raised e
      | None => if test o l at_ then block a loc at_ bound else block b loc at_ bound
      end
  | For l reads target bd =>
      match look globals loc bound reads with
      | Some e => Raised e
      | None => iterate (fun i b => block bd loc (i :: at_) (target ++ b)) (times o l at_) 0 bound
      end
  | Give reads => match look globals loc bound reads with Some e => Raised e | None => Returned end
  | Run l reads writes ps bd =>
      match look globals loc bound reads with
      | Some e => Raised e
      | None =>
          match block bd (ps ++ flat_map binds bd) (0 :: at_) ps with
          | Raised e => Raised e
          | Returned | Next _ => match fails o l at_ with Some e => Raised (Other e) | None => Next (writes ++ bound) end
          end
      end
  end.
Fixpoint block (globals : list string) (o : oracle) (ss : list stmt) (loc : list string) (at_ : list nat) (bound : list string) : result :=
  match ss with
  | [] => Next bound
  | s :: r => match exec globals o s loc at_ bound with Next b => block globals o r loc at_ b | e => e end
  end.
(** A call with all parameters given; a body that ends returns None. *)
Definition call (globals : list string) (o : oracle) (f : func) : result :=
  match block globals o (body f) (locals f) [] (params f) with Next _ => Returned | r => r end.

(** * Bodies *)
(** Builtins of Python 3 that the bodies read; [xrange] is not one. *)
Definition builtins : list string := ["type"; "str"; "float"; "int"; "print"; "range"; "isinstance"; "enumerate"; "len"; "zip"; "None"; "True"; "False"].

(** The names of lyman_alpha_coupling.py: its own (1-176) and the public ones of usefuls.py (1-107). *)
Definition coupling_globals : list string :=
  builtins ++ ["np"; "interp1d"; "interp2d"; "os"; "glob"; "time"; "timeit"; "lam_lya"; "lam_HII"; "f_esc_lya"; "dlam"; "h_planck"; "c_light"; "nu_lya"; "E_lya"; "m2parsec"; "yr2sec";
   "_read_halofile"; "Lya_coupling_coeff"; "one_source"; "Lya_coupling_coeff_MPI"; "Lya_coupling_coeff_"; "one_source_"; "Lya_coupling_coeff_useprofile"; "_get_xc"; "_get_profile";
   "sys"; "conv"; "const"; "helper_functions"; "lightcone"; "tm"; "density_file"; "vel_file"; "xfrac_file"; "loading_verbose"; "loading_msg"; "Mgrid_2_Msolar"; "Msolar_2_Mgrid";
   "get_zs_list"; "coeval_21cm"; "coeval_xfrac"; "coeval_dens"; "coeval_overdens"; "coeval_vel"].

(** [_read_halofile] (18-22). *)
Definition read_halofile : func := Func ["filename"; "z"]
  [If "is_file" ["filename"] [Do "load" ["np"; "filename"] ["src"]] [Do "load_dir" ["np"; "filename"; "str"; "z"] ["src"]];
   If "z<0" ["z"] [Do "parse" ["float"; "filename"] ["z"]] [];
   Give ["src"; "z"]].
(** The reading of the spectrum, lines 25-30 and 77-82. *)
Definition read_sed : list stmt :=
  [Do "assert" ["SED"; "lum"; "lam"] [];
   If "SED_is_str" ["SED"; "type"; "str"] [Do "load_sed" ["np"; "SED"] ["lum"; "lam"]] [If "SED_given" ["SED"] [Do "unpack_sed" ["SED"] ["lum"; "lam"]] []];
   If "both" ["lum"; "lam"]
     [If "lum_str" ["type"; "lum"; "str"] [Do "load_lum" ["np"; "lum"] ["lum"]] []; If "lam_str" ["type"; "lam"; "str"] [Do "load_lam" ["np"; "lam"] ["lam"]] []] []].
(** [one_source] (43-57). *)
Definition one_source : func := Func ["z"; "ncells"; "boxsize"; "source_pos"; "mass"; "sed_func"]
  [Do "start" ["timeit"] ["start"]; Do "pos" ["source_pos"] ["i"; "j"; "k"]; Do "grid" ["np"; "ncells"] ["xx"; "yy"; "zz"];
   Do "rr2" ["xx"; "i"; "yy"; "j"; "zz"; "k"; "boxsize"; "ncells"] ["rr2"]; Do "rr" ["np"; "rr2"] ["rr"];
   Do "zss" ["cm"; "rr"; "cm"; "z"] ["zss"]; Do "rp2" ["rr2"; "zss"] ["rp2"]; Do "lms" ["lam_lya"; "z"; "zss"] ["lms"];
   Do "eng" ["sed_func"; "lms"; "mass"; "dlam"; "np"; "rp2"] ["eng"]; Do "cut" ["eng"; "lms"; "lam_HII"] []; Do "n_a" ["eng"; "h_planck"; "nu_lya"] ["n_a"];
   Do "stop" ["timeit"] ["stop"]; Do "print" ["print"; "stop"; "start"] []; Give ["n_a"]].
(** [Lya_coupling_coeff] (24-40); the call of [one_source] (37) has five arguments for six parameters, which is
    left to the oracle as the outcome of that statement. *)
Definition coupling_coeff : func := Func ["ncells"; "boxsize"; "sourcelist"; "z"; "SED"; "lum"; "lam"]
  (read_sed ++
   [Do "sed_func" ["interp1d"; "lam"; "lum"] ["sed_func"]; Do "zeros" ["np"; "ncells"] ["xc_cube"];
    Run "halofile" ["_read_halofile"; "sourcelist"; "z"] ["src"; "z"] (params read_halofile) (body read_halofile); Do "n_src" ["src"] ["n_src"];
    For "sources" ["xrange"; "n_src"] ["s"]
      [Do "source" ["src"; "s"; "np"; "src"; "s"] ["source_pos"; "mass"]; Do "one" ["one_source"; "ncells"; "boxsize"; "source_pos"; "mass"; "sed_func"] ["na_cube"];
       Do "add" ["xc_cube"; "na_cube"] ["xc_cube"]; Do "verbose" ["loading_verbose"; "str"; "s"; "n_src"] []];
    Give ["xc_cube"]]).
(** [Lya_coupling_coeff_MPI] (59-74). *)
Definition coupling_coeff_MPI : func := Func ["ncells"; "boxsize"; "sourcelist_loc"; "z"; "SED_loc"; "n_jobs"; "lum"; "lam"]
  [Do "assert_str" ["type"; "sourcelist_loc"; "str"] []; Do "assert" ["SED_loc"; "lum"; "lam"] [];
   If "z<0" ["z"] [Do "parse" ["float"; "sourcelist_loc"] ["z"]] [];
   If "both" ["lum"; "lam"]
     [Do "sed" ["np"; "lam"; "lum"] ["sed"]; Do "name" ["str"; "time"] ["dummy_SED_name"]; Do "save" ["np"; "dummy_SED_name"; "sed"] []; Do "loc" ["dummy_SED_name"] ["SED_loc"]] [];
   Do "flname" ["str"; "time"] ["flname"]; Do "run_prog" ["str"; "n_jobs"; "ncells"; "boxsize"; "sourcelist_loc"; "SED_loc"; "z"; "flname"] ["run_prog"];
   Do "system" ["os"; "run_prog"] []; If "dummy" ["SED_loc"; "dummy_SED_name"] [Do "remove_sed" ["os"; "dummy_SED_name"] []] [];
   Do "load" ["np"; "flname"] ["xc_cube"]; Do "remove" ["os"; "flname"] []; Give ["xc_cube"]].
(** [Lya_coupling_coeff_] (76-101). *)
Definition coupling_coeff_ : func := Func ["ncells"; "boxsize"; "sourcelist"; "z"; "SED"; "lum"; "lam"]
  (read_sed ++
   [Do "sed_func" ["interp1d"; "lam"; "lum"] ["sed_func"]; Do "rr" ["np"; "boxsize"] ["rr"]; Do "zs" ["cm"; "rr"; "cm"; "z"] ["zs"]; Do "lms" ["lam_lya"; "z"; "zs"] ["lms"];
    Do "zs_HII" ["zs"; "lms"; "lam_HII"] ["zs_HII"]; Do "rp" ["rr"; "zs"] ["rp"]; Do "eng" ["sed_func"; "lms"; "dlam"; "np"; "rp"] ["eng"]; Do "eng_func" ["interp1d"; "zs"; "eng"] ["eng_func"];
    Run "halofile" ["_read_halofile"; "sourcelist"; "z"] ["src"; "z"] (params read_halofile) (body read_halofile); Do "n_src" ["src"] ["n_src"];
    Do "masses" ["Mgrid_2_Msolar"; "src"] ["masses"]; Do "zeros" ["np"; "ncells"] ["xc_cube"]; Do "grid" ["np"; "ncells"] ["xx"; "yy"; "zz"];
    For "sources" ["xrange"; "n_src"] ["s"]
      [Do "source" ["src"; "s"; "np"] ["source_pos"]; Do "one" ["one_source"; "xx"; "yy"; "zz"; "ncells"; "boxsize"; "source_pos"; "masses"; "p"; "eng_func"; "zs_HII"] ["na_cube"];
       Do "add" ["xc_cube"; "na_cube"] ["xc_cube"]; Do "verbose" ["loading_verbose"; "str"; "s"; "n_src"] []];
    Give ["xc_cube"]]).
(** [one_source_] (103-114). *)
Definition one_source_ : func := Func ["xx"; "yy"; "zz"; "z"; "ncells"; "boxsize"; "source_pos"; "mass"; "eng_func"; "zs_HII"]
  [Do "start" ["timeit"] ["start"]; Do "pos" ["source_pos"] ["i"; "j"; "k"]; Do "rr2" ["xx"; "i"; "yy"; "j"; "zz"; "k"; "boxsize"; "ncells"] ["rr2"]; Do "rr" ["np"; "rr2"] ["rr"];
   Do "rr0" ["rr"; "rr"] []; Do "zss" ["cm"; "rr"; "cm"; "z"] ["zss"]; Do "eng" ["eng_func"; "zss"] ["eng"]; Do "cut" ["eng"; "zss"; "zs_HII"] []; Do "n_a" ["eng"; "mass"; "E_lya"] ["n_a"];
   Do "stop" ["timeit"] ["stop"]; Do "print" ["print"; "stop"; "start"] []; Give ["n_a"]].
(** [_get_xc] (140-153). *)
Definition get_xc : func := Func ["sources"; "engs"; "ncells"; "mass_axis"; "time_taken"]
  [Do "start" ["timeit"] ["start"]; Do "masses" ["Mgrid_2_Msolar"; "sources"; "mass_axis"] ["masses"]; Do "zeros" ["np"; "ncells"] ["xc_cube"]; Do "n_src" ["sources"] ["n_src"];
   Do "scale" ["engs"; "mass"; "E_lya"] ["engs"];
   For "sources" ["xrange"; "n_src"] ["s"]
     [Do "pos" ["sources"; "s"; "np"] ["i"; "j"; "k"]; Do "mass" ["masses"; "s"] ["mass"]; Do "eng_" ["engs"; "ncells"; "i"; "j"; "k"] ["eng_"]; Do "add" ["xc_cube"; "eng_"] ["xc_cube"]];
   Do "stop" ["timeit"] ["stop"]; If "time_taken" ["time_taken"] [Do "print" ["print"; "stop"; "start"] []] []; Give ["xc_cube"]].
(** [_get_profile] (156-176). *)
Definition get_profile : func := Func ["z"; "lam"; "lum"; "boxsize"; "ncells"; "r_min"; "r_max"]
  [Do "sed_func" ["interp1d"; "lam"; "lum"] ["sed_func"]; Do "rs" ["np"; "boxsize"] ["rs"]; Do "zs" ["cm"; "rs"; "cm"; "z"] ["zs"]; Do "lms" ["lam_lya"; "z"; "zs"] ["lms"];
   Do "rp" ["rs"; "zs"] ["rp"]; Do "rs_HII" ["rs"; "lms"; "lam_HII"] ["rs_HII"]; Do "eng" ["sed_func"; "lms"; "dlam"; "np"; "rp"] ["eng"]; Do "grid" ["np"; "ncells"] ["xx"; "yy"; "zz"];
   Do "rr2" ["xx"; "yy"; "zz"; "boxsize"; "ncells"] ["rr2"]; Do "rr" ["np"; "rr2"] ["rr"]; Do "rr0" ["rr"] []; Do "eng_func" ["interp1d"; "rs"; "eng"] ["eng_func"];
   Do "engs" ["eng_func"; "rr"] ["engs"]; Do "cuts" ["engs"; "rr"; "rs_HII"; "r_min"; "r_max"] []; Do "rolls" ["np"; "engs"; "ncells"] ["eng0"; "eng1"; "eng2"];
   Do "sum" ["engs"; "eng0"; "eng1"; "eng2"] ["engs"]; Give ["engs"]].
(** [Lya_coupling_coeff_useprofile] (116-138). *)
Definition useprofile : func := Func ["z"; "ncells"; "boxsize"; "source_dir"; "source_file"; "SED"; "lum"; "lam"; "tstep"]
  (read_sed ++
   [Do "lists" ["np"; "glob"; "source_dir"; "source_file"] ["sourcelists"]; Do "source_zs" ["np"; "float"; "sourcelists"] ["source_zs"];
    If "nearest" ["z"; "source_zs"] [Do "z" ["source_zs"; "np"; "z"] ["z"]; Do "print" ["print"; "z"] []] [];
    Do "z_max" ["z"; "lam_lya"; "lam_HII"] ["z_max"]; Do "src_zs" ["source_zs"; "z"; "z_max"] ["src_zs"]; Do "r_light" ["c_light"; "tstep"; "yr2sec"; "m2parsec"] ["r_light"];
    For "redshifts" ["src_zs"] ["zi"]
      [If "first" ["zi"; "z"] [Do "zl_first" [] ["zl"]] [Do "zl" ["source_zs"; "zi"] ["zl"]];
       Run "profile" ["_get_profile"; "z"; "lam"; "lum"; "boxsize"; "ncells"; "r_light"; "zl"; "zi"] ["engs"] (params get_profile) (body get_profile);
       Do "sources" ["np"; "sourcelists"; "source_zs"; "zi"] ["sources"];
       Run "xc" ["_get_xc"; "sources"; "engs"; "ncells"] ["xc_cube"] (params get_xc) (body get_xc)];
    Give ["xc_cube"]]).

(** The names of bispectrum.py (5-14 and its definitions). *)
Definition bispectrum_globals : list string :=
  builtins ++ ["np"; "gc"; "time"; "sleep"; "tqdm"; "fftpack"; "stats"; "Parallel"; "delayed"; "const"; "conv"; "print_msg"; "get_eval"; "numpy_product"; "_get_dims"; "_get_k"; "_get_kbins"; "apply_window";
   "fft_nd"; "Bispectrum"; "BispectrumPylians"; "bispectrum_k1k2"; "bispectrum_equilateral"].
(** [Bispectrum.bispectrum_k1k2] (104-153); [window_arg] is the name that is windowed on line 112, the local
    function (129-140) is bound without being run. *)
Definition k1k2_with (window_arg : string) : func := Func ["self"; "k1"; "k2"; "dk"; "n_bins"; "box_dims"; "return_n_modes"; "binning"; "verbose"; "window"; "n_jobs"]
  [Do "tstart" ["time"] ["tstart"]; Do "nd" ["self"; "np"] ["input_array_nd"]; Do "window" ["apply_window"; window_arg; "window"] ["input_array"];
   Do "dims" ["_get_dims"; "box_dims"; "input_array_nd"] ["box_dims"; "box_dims_input"]; If "v1" ["verbose"; "box_dims_input"] [Do "print1" ["print"; "box_dims"] []] [];
   If "v2" ["verbose"] [Do "print2" ["print"; "k1"; "k2"] []] []; Do "fft" ["fft_nd"; "input_array_nd"; "box_dims"; "verbose"] ["input_array_fft"; "k_comp"; "k_mag"];
   If "v3" ["verbose"] [Do "print3" ["print"] []] []; If "linear" ["binning"] [Do "lin" ["np"; "n_bins"] ["alphas"]] [Do "log" ["np"; "n_bins"] ["alphas"]];
   Do "k3" ["self"; "k1"; "k2"; "alphas"] ["k3_list"]; Do "def" [] ["run_loop"];
   If "serial" ["n_jobs"] [Do "loop" ["np"; "tqdm"; "range"; "n_bins"; "run_loop"] ["B_list"]] [Do "parallel" ["np"; "Parallel"; "n_jobs"; "delayed"; "run_loop"; "tqdm"; "range"; "n_bins"] ["B_list"]];
   Do "out" ["B_list"; "alphas"; "np"; "k1"; "k2"; "k3_list"] ["out_dict"]; If "v4" ["verbose"] [Do "print4" ["print"; "time"; "tstart"] []] []; Give ["out_dict"]].
Definition bispectrum_k1k2 : func := k1k2_with "input_array".
(** [Bispectrum.bispectrum_k] (156-205). *)
Definition k_with (window_arg : string) : func := Func ["self"; "dk"; "n_bins"; "box_dims"; "return_n_modes"; "binning"; "verbose"; "window"; "n_jobs"]
  [Do "tstart" ["time"] ["tstart"]; Do "nd" ["self"; "np"] ["input_array_nd"]; Do "window" ["apply_window"; window_arg; "window"] ["input_array"];
   Do "dims" ["_get_dims"; "box_dims"; "input_array_nd"] ["box_dims"; "box_dims_input"]; If "v1" ["verbose"; "box_dims_input"] [Do "print1" ["print"; "box_dims"] []] [];
   If "v2" ["verbose"] [Do "print2" ["print"] []] []; Do "fft" ["fft_nd"; "input_array_nd"; "box_dims"; "verbose"] ["input_array_fft"; "k_comp"; "k_mag"];
   If "v3" ["verbose"] [Do "print3" ["print"] []] []; Do "kbins" ["_get_kbins"; "n_bins"; "box_dims"; "k_mag"; "binning"] ["kbins"];
   If "dk" ["isinstance"; "dk"; "float"] [Do "dks" ["dk"; "np"; "kbins"] ["dk"]] [Do "dk_same" ["dk"] ["dk"]]; Do "def" [] ["run_loop"];
   If "serial" ["n_jobs"] [Do "loop" ["np"; "tqdm"; "range"; "n_bins"; "run_loop"] ["B_list"]] [Do "parallel" ["np"; "Parallel"; "n_jobs"; "delayed"; "run_loop"; "tqdm"; "range"; "n_bins"] ["B_list"]];
   Do "out" ["B_list"; "kbins"] ["out_dict"]; If "v4" ["verbose"] [Do "print4" ["print"; "time"; "tstart"] []] []; Give ["out_dict"]].
Definition bispectrum_k : func := k_with "input_array".
(** [bispectrum_equilateral] (287-332). *)
Definition equilateral : func := Func ["input_array"; "n_bins"; "box_dims"; "window"; "n_jobs"; "kwargs"]
  [Do "tstart" ["time"] ["tstart"]; Do "window" ["apply_window"; "input_array"; "window"; "np"] ["input_array"]; Do "binning" ["kwargs"] ["binning"]; Do "kmin" ["np"; "box_dims"] ["kmin"];
   Do "kmax" ["kmin"; "np"; "input_array"] ["kmax"];
   If "linear" ["binning"] [Do "lin" ["np"; "kmin"; "kmax"; "n_bins"] ["kbins"]; Do "lin_mid" ["kbins"] ["kbins"]]
     [If "log" ["binning"] [Do "logs" ["np"; "kmin"; "kmax"; "n_bins"] ["kbins"]; Do "log_mid" ["kbins"] ["kbins"]] []];
   Do "verbose" ["kwargs"] ["verbose"]; Do "object" ["BispectrumPylians"; "input_array"; "box_dims"; "n_jobs"] ["bisp"]; Do "dict" ["np"] ["outp"];
   For "k" ["enumerate"; "kbins"] ["ii"; "ki"]
     [If "v1" ["verbose"] [Do "print1" ["print"; "ii"; "len"; "kbins"; "ki"] []] []; Do "pylians" ["bisp"; "ki"; "np"] ["outi"]; For "keys" [] ["ke"] [Do "append" ["np"; "outp"; "ke"; "outi"] []]];
   If "v2" ["verbose"] [Do "print2" ["print"; "time"; "tstart"] []] []; Give ["outp"]].
