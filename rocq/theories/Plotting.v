(** * Model of the plotting scripts [results/plotting/*.py]

    What is drawn: curves, images, their data and the visible range.  Not
    modelled: styles, labels, legends, ticks, colours, saving the figures. *)
From stdpp Require Import strings gmap.
From Verif Require Export Output.
From Verif Require Import Codec.

(** ** [json.load]

    Simplification: strings with escapes or control characters, [NaN] and
    [Infinity], all of which the programs never write, are not accepted.  Errors
    are exceptions ([None]). *)

Definition is_number_char (c : Byte.byte) : bool :=
  match digit_of c with
  | Some _ => true
  | None => match c with Byte.x2b | Byte.x2d | Byte.x2e | Byte.x45 | Byte.x65 => true | _ => false end
  end.
Fixpoint span_number (b : bytes) : bytes * bytes :=
  match b with
  | [] => ([], [])
  | c :: r => if is_number_char c then let '(t, r) := span_number r in (c :: t, r) else ([], b)
  end.

(** No superfluous zeros at the beginning. *)
Definition json_literal (l : literal) : bool :=
  match lit_int l with 0%N :: _ :: _ => false | _ => true end.
Definition py_number (b : bytes) : option (json * bytes) :=
  let '(t, r) := span_number b in
  l ← read_literal t; if json_literal l then Some (JNumber t, r) else None.

(** The rest of a string after the quotation mark. *)
Fixpoint py_string (b : bytes) : option (bytes * bytes) :=
  match b with
  | [] => None
  | Byte.x22 :: r => Some ([], r)
  | c :: r =>
      if Byte.eqb c Byte.x5c || (Byte.to_N c <? 32)%N then None
      else '(s, r) ← py_string r; Some (c :: s, r)
  end.

(** The elements or members up to the closing bracket. *)
Fixpoint py_items {A} (close : Byte.byte) (p : parser A) (fuel : nat) (b : bytes) : option (list A * bytes) :=
  match fuel with
  | 0 => None
  | S fuel =>
      '(a, b) ← p b;
      match skip_blanks b with
      | c :: b =>
          if Byte.eqb c Byte.x2c then '(l, b) ← py_items close p fuel b; Some (a :: l, b)
          else if Byte.eqb c close then Some ([a], b)
          else None
      | [] => None
      end
  end.
Definition py_list {A} (close : Byte.byte) (p : parser A) (b : bytes) : option (list A * bytes) :=
  match skip_blanks b with
  | c :: r => if Byte.eqb c close then Some ([], r) else py_items close p (length b) b
  | [] => None
  end.
Definition py_member (p : parser json) : parser (bytes * json) := λ b,
  b ← expect Byte.x22 b; '(k, b) ← py_string b; b ← expect Byte.x3a b; '(v, b) ← p b; Some ((k, v), b).

Fixpoint py_value (fuel : nat) (b : bytes) : option (json * bytes) :=
  match fuel with
  | 0 => None
  | S fuel =>
      match skip_blanks b with
      | Byte.x5b :: r => '(l, r) ← py_list Byte.x5d (py_value fuel) r; Some (JArray l, r)
      | Byte.x7b :: r => '(l, r) ← py_list Byte.x7d (py_member (py_value fuel)) r; Some (JObject l, r)
      | Byte.x22 :: r => '(s, r) ← py_string r; Some (JString s, r)
      | Byte.x6e :: r => r ← strip (text "ull") r; Some (JNull, r)
      | Byte.x74 :: r => r ← strip (text "rue") r; Some (JBool true, r)
      | Byte.x66 :: r => r ← strip (text "alse") r; Some (JBool false, r)
      | r => py_number r
      end
  end.

Definition json_load (b : bytes) : option json :=
  match py_value (S (length b)) b with
  | Some (v, r) => match skip_blanks r with [] => Some v | _ => None end
  | None => None
  end.

(** ** Python values *)

Inductive pyval :=
| PNone
| PBool (b : bool)
| PInt (z : Z)
| PFloat (x : f64)
| PStr (s : bytes)
| PList (l : list pyval)
| PDict (l : list (bytes * pyval)).

(** A number with a fraction or an exponent becomes a float. *)
Definition py_of_literal (l : literal) : pyval :=
  match lit_frac l, lit_exp l with
  | [], None => let n := Z.of_N (digits_value (lit_int l)) in PInt (if lit_negative l then - n else n)
  | _, _ => PFloat (literal_f64 l)
  end.
Fixpoint py_of_json (v : json) : pyval :=
  match v with
  | JNull => PNone
  | JBool b => PBool b
  | JNumber t => match read_literal t with Some l => py_of_literal l | None => PNone end
  | JString s => PStr s
  | JArray l => PList (map py_of_json l)
  | JObject l => PDict (map (λ '(k, v), (k, py_of_json v)) l)
  end.

Definition bytes_eqb (s t : bytes) : bool := String.eqb (name s) (name t).
(** [d[key]] and [d.get(key)]: the last one counts. *)
Definition py_find (key : bytes) (l : list (bytes * pyval)) : option pyval :=
  snd <$> last (List.filter (λ e, bytes_eqb e.1 key) l).
Definition py_key (v : pyval) (key : bytes) : option pyval :=
  match v with PDict l => py_find key l | _ => None end.
Definition py_get (v : pyval) (key : bytes) : option pyval :=
  match v with PDict l => Some (default PNone (py_find key l)) | _ => None end.
Definition py_index (v : pyval) (i : nat) : option pyval :=
  match v with PList l => l !! i | _ => None end.
Definition py_iter (v : pyval) : option (list pyval) :=
  match v with PList l => Some l | _ => None end.
Definition py_int (v : pyval) : option Z := match v with PInt z => Some z | _ => None end.

(** [open(file, "r")] and [json.load(f)]. *)
Definition load_file (fs : Disk) (file : bytes) : option pyval :=
  b ← fs !! name file; py_of_json <$> json_load b.

(** plot.py:6. *)
Definition plot_output : bytes := text "data".

(** ** utils.py *)

(** [splitlines] and [split(" ")].  Simplification: only line feeds end lines. *)
Fixpoint split_at (c : Byte.byte) (b : bytes) : list bytes :=
  match b with
  | [] => [[]]
  | d :: r =>
      if Byte.eqb c d then [] :: split_at c r
      else match split_at c r with x :: l => (d :: x) :: l | [] => [[d]] end
  end.
Definition splitlines (b : bytes) : list bytes :=
  let l := split_at Byte.x0a b in
  match last l with Some [] => removelast l | _ => l end.

(** [get_parameters], utils.py:4-10. *)
Definition get_parameters (fs : Disk) (task : bytes) : option (list (f64 * f64)) :=
  b ← fs !! name (text "parameters/" ++ task ++ text ".dat");
  mapM (λ line,
    let pair := split_at Byte.x20 line in
    x ← pair !! 0; y ← pair !! 1; x ← read_f64 x; y ← read_f64 y; Some (x, y)) (splitlines b).

(** ** nodes.py *)

Section scripts.
  Context (shortest : Digits).

  (** [get_data], nodes.py:150-157; the density types are lines 11-12. *)
  Definition nodes_get_data (fs : Disk) (parameter : f64 * f64) : option pyval :=
    load_file fs (plot_output ++ text "/node-" ++ text "reziprocal_square_root" ++ text ":" ++
      py_repr shortest parameter.1 ++ text "_" ++ text "reziprocal_square_root" ++ text ":" ++
      py_repr shortest parameter.2 ++ text ".json").

  (** A number for matplotlib; [None] is a gap. *)
  Definition plottable (v : pyval) : option (option f64) :=
    match v with
    | PNone => Some None
    | PFloat x => Some (Some x)
    | PInt z => Some (Some (binary_normalize f64_prec f64_emax z 0 false))
    | _ => None
    end.

  (** One curve: the number of its label and its points. *)
  Record curve := mkCurve { c_label : nat; c_points : list (nat * option f64) }.
  Record axes := mkAxes { a_curves : list curve; a_xlim : nat * nat }.

  (** [ac.plot(range(a, b), dat)]: the lengths must agree. *)
  Definition plot (label : nat) (xs : list nat) (dat : pyval) : option curve :=
    l ← py_iter dat; ys ← mapM plottable l;
    if length xs =? length ys then Some (mkCurve label (zip xs ys)) else None.

  (** One round of the loop, nodes.py:53-68. *)
  Definition nodes_round (data : pyval) (s : list curve * list curve * nat) (i : nat)
      : option (list curve * list curve * nat) :=
    let '(a, b, max_x) := s in
    time ← py_index data (i * 4);
    space ← py_index data (i * 4 + 2);
    l ← py_iter time;
    let len := length l in
    c ← plot i (seq 2 len) time;
    d ← plot i (seq 2 len) space;
    Some (a ++ [c], b ++ [d], Nat.max max_x len).
  Fixpoint nodes_loop (data : pyval) (s : list curve * list curve * nat) (l : list nat)
      : option (list curve * list curve * nat) :=
    match l with
    | [] => Some s
    | i :: l => s ← nodes_round data s i; nodes_loop data s l
    end.

  (** [main], nodes.py:31-71: the axes for time and for space. *)
  Definition nodes_main (fs : Disk) : option (axes * axes) :=
    parameters ← get_parameters fs (text "node");
    para ← parameters !! 0;
    d ← nodes_get_data fs para;
    data ← py_key d (text "results");
    '(a, b, max_x) ← nodes_loop data ([], [], 0) (seq 0 4);
    Some (mkAxes a (2, max_x), mkAxes b (2, max_x)).

  (** One curve with error bars. *)
  Record bars := mkBars { b_label : nat; b_points : list (nat * (f64 * f64)) }.

  (** A comparison with [<] needs a number. *)
  Definition comparable (v : pyval) : option f64 :=
    match v with
    | PFloat x => Some x
    | PInt z => Some (binary_normalize f64_prec f64_emax z 0 false)
    | _ => None
    end.

  (** [errorbar(xs, mean, deviation)]: the lengths must agree, a negative error bar is
      an exception. *)
  Definition errorbar (label : nat) (xs : list nat) (mean deviation : pyval) : option bars :=
    l ← py_iter mean; ys ← mapM comparable l;
    l ← py_iter deviation; ds ← mapM comparable l;
    if (length xs =? length ys) && (length xs =? length ds) && forallb (λ d, negb (SFltb d f64_zero)) ds
    then Some (mkBars label (zip xs (zip ys ds))) else None.

  (** One round of the loop of [appendix], nodes.py:107-132. *)
  Definition appendix_round (data : pyval) (s : list bars * list bars * nat) (i : nat)
      : option (list bars * list bars * nat) :=
    let '(a, b, max_x) := s in
    time ← py_index data (i * 4);
    time_deviation ← py_index data (i * 4 + 1);
    space ← py_index data (i * 4 + 2);
    space_deviation ← py_index data (i * 4 + 3);
    l ← py_iter time;
    let len := length l in
    c ← errorbar i (seq 2 len) time time_deviation;
    d ← errorbar i (seq 2 len) space space_deviation;
    Some (a ++ [c], b ++ [d], Nat.max max_x len).
  Fixpoint appendix_loop (data : pyval) (s : list bars * list bars * nat) (l : list nat)
      : option (list bars * list bars * nat) :=
    match l with
    | [] => Some s
    | i :: l => s ← appendix_round data s i; appendix_loop data s l
    end.

  (** [appendix], nodes.py:88-147: the curves for time and for space, and the visible
      range. *)
  Definition nodes_appendix (fs : Disk) : option (list bars * list bars * (nat * nat)) :=
    parameters ← get_parameters fs (text "node");
    para ← parameters !! 0;
    d ← nodes_get_data fs para;
    data ← py_key d (text "results");
    '(a, b, max_x) ← appendix_loop data ([], [], 0) (seq 0 4);
    Some (a, b, (2, max_x)).

  (** ** densities.py *)

  (** [int(x)] of a float: towards zero. *)
  Definition py_trunc (x : f64) : option Z :=
    match x with
    | S754_zero _ => Some 0%Z
    | S754_finite s m e =>
        let n := if (0 <=? e)%Z then (Zpos m * 2 ^ e)%Z else (Zpos m / 2 ^ (- e))%Z in
        Some (if s then - n else n)%Z
    | _ => None
    end.
  Definition py_int_text (z : Z) : bytes :=
    (if (z <? 0)%Z then text "-" else []) ++ json_write_usize (Z.abs_N z).

  (** [numnodes], [numdensity], densities.py:14-15. *)
  Definition numnodes : nat := 20.
  Definition numdensity : nat := 21.

  (** [get_data], densities.py:90-97. *)
  Definition densities_get_data (fs : Disk) (parameter : f64 * f64) : option pyval :=
    z ← py_trunc parameter.2;
    load_file fs (plot_output ++ text "/density-numnodes:" ++ json_write_usize (N.of_nat numnodes) ++
      text "_numdensities:" ++ json_write_usize (N.of_nat numdensity) ++
      text "_density:" ++ py_int_text z ++ text ".json").

  (** One row of one image: the row and the new minimum and maximum, densities.py:121-125. *)
  Definition image_row (mm : f64 * f64) (row : pyval) : option (list f64 * (f64 * f64)) :=
    l ← py_iter row;
    l ← mapM comparable l;
    Some (l, foldl (λ '(mn, mx) d, (if SFltb d mn then d else mn, if SFltb mx d then d else mx)) mm l).

  (** The images of one parameter file, densities.py:118-125: [map = [0, 1, 2, 3]]. *)
  Fixpoint image_rows (dat : pyval) (is : list nat) (mm : f64 * f64) : option (list (list f64) * (f64 * f64)) :=
    match is with
    | [] => Some ([], mm)
    | i :: is =>
        v ← py_index dat (2 * i);
        '(row, mm) ← image_row mm v;
        '(rows, mm) ← image_rows dat is mm;
        Some (row :: rows, mm)
    end.
  Fixpoint images_loop (fs : Disk) (parameters : list (f64 * f64)) (mm : f64 * f64)
      : option (list (list (list f64)) * (f64 * f64)) :=
    match parameters with
    | [] => Some ([], mm)
    | para :: parameters =>
        d ← densities_get_data fs para;
        dat ← py_key d (text "results");
        '(rows, mm) ← image_rows dat (seq 0 4) mm;
        '(rest, mm) ← images_loop fs parameters mm;
        Some (rows :: rest, mm)
    end.

  (** [draw_images], densities.py:108-133: for every panel the rows of its image,
      and the range of the colours.  [imshow] needs rows of the same length. *)
  Definition rectangular (rows : list (list f64)) : bool :=
    match rows with [] => true | r :: rows => forallb (λ r', length r' =? length r) rows end.
  Definition draw_images (fs : Disk) : option (list (list (list f64)) * (f64 * f64)) :=
    parameters ← get_parameters fs (text "density");
    '(rows, mm) ← images_loop fs parameters (f64_of_usize (N.of_nat numnodes), f64_zero);
    let images := map (λ i, omap (λ r, r !! i) rows) (seq 0 4) in
    if forallb rectangular images then Some (images, mm) else None.

  (** ** runtimes.py *)

  (** [t["secs"] * 1000000000 + t["nanos"]], runtimes.py:103-106 and 133-136; a missing time is skipped. *)
  Definition runtime_of (key : bytes) (time : pyval) : option (option Z) :=
    t ← py_get time key;
    match t with
    | PNone => Some None
    | t =>
        s ← py_key t (text "secs"); n ← py_key t (text "nanos"); s ← py_int s; n ← py_int n;
        Some (Some (s * 1000000000 + n)%Z)
    end.
  Definition runtimes_of (d : pyval) (key : bytes) : option (list Z) :=
    l ← py_key d (text "time_results"); l ← py_iter l;
    l ← mapM (runtime_of key) l; Some (omap id l).

  (** [get_data] for the node data, runtimes.py:94-111, and its two curves,
      [appendix], lines 44-51. *)
  Definition runtimes_node (fs : Disk) : option (list (nat * Z) * list (nat * Z)) :=
    parameters ← get_parameters fs (text "node");
    para ← parameters !! 0;
    d ← nodes_get_data fs para;
    a ← runtimes_of d (text "space_optimal_approximated");
    b ← runtimes_of d (text "full");
    Some (zip (seq 2 (length a)) a, zip (seq 2 (length b)) b).

  (** [get_data] for the density data, runtimes.py:113-145: the rows of the image and
      the range of the colours. *)
  Definition runtimes_density (fs : Disk) : option (list (list Z) * (Z * Z)) :=
    parameters ← get_parameters fs (text "density");
    rows ← mapM (λ para, d ← densities_get_data fs para;
      runtimes_of d (text "space_optimal_approximated")) parameters;
    Some (rows, foldl (λ '(mn, mx) n, (Z.min mn n, Z.max mx n)) (999 * 60 * 1000000000, 0)%Z
      (List.concat rows)).
End scripts.
