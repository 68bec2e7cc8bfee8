(** UF11 and UF12: the rotated problems, whose matrix, stretching factors, bounds and Pareto
    front are read from data files.

    The matrices are transcribed in units of 1/10000, factors and bounds in units of 1/1000
    (the files have at most that many decimals).  The published front (5000 lines) is an
    argument. *)
From Coq Require Import ZArith Reals List.
From Verif Require Import ProbModel.
Import ListNotations.
Local Open Scope R_scope.

(** problems/UF11/problem.py:30: float(x) of the decimal numbers in the files. *)
Definition scaled (unit : Z) (l : list Z) : list R := map (fun k => IZR k / IZR unit) l.

(** problems/UF11/problem.py:38-39 (the same in UF12): [np.dot(M, x)]; ValueError when the
    lengths differ. *)
Fixpoint dot (row x : list R) : option R :=
  match row, x with
  | [], [] => Some 0
  | a :: row', v :: x' => let* s := dot row' x' in Some (a * v + s)
  | _, _ => None
  end.
(** problems/UF11/problem.py:38-39. *)
Definition z (M : list (list R)) (x : list R) : option (list R) := mmap (fun row => dot row x) M.

(** problems/UF11/problem.py:42-46. *)
Definition z_bis (lambdas zs : list R) : option (list R) :=
  mmap (fun i => let* zi := get zs i in
                 let* li := get lambdas i in
                 Some (if Rlt_dec zi 0 then - li * zi else if Rlt_dec 1 zi then li * zi else zi))
    (seq 0 (length zs)).

(** problems/UF11/problem.py:49-58. *)
Definition p (zi : R) : R := if Rlt_dec zi 0 then - zi else if Rlt_dec 1 zi then zi - 1 else 0.
(** problems/UF11/problem.py:49-50. *)
Definition psum (zs : list R) (m : nat) : option R :=
  let* s := msum (fun i => let* zi := get zs i in Some (p zi ^ 2)) (seq 0 m) in py_sqrt s.
(** problems/UF11/problem.py:53-54. *)
Definition S_ (zs : list R) (m : nat) : option R :=
  let* q := psum zs m in py_div 2 (1 + exp (- q)).

(** problems/UF11/problem.py:61-62 and problems/UF12/problem.py:61-64. *)
Definition g11 (zs : list R) : option R := msum (fun v => Some ((v - 0.5) ^ 2)) zs.
(** problems/UF12/problem.py:61-64. *)
Definition g12 (zs : list R) : option R :=
  let* s := msum (fun v => Some ((v - 0.5) ^ 2 - cos (20 * PI * (v - 0.5)))) zs in
  Some (100 * (INR (length zs) + s)).

(** problems/UF11/problem.py:65-74. *)
Definition base_fit_cos (zb : list R) (m : nat) : option R :=
  let c i := let* v := get zb i in Some (cos (v * PI / 2)) in
  if Nat.ltb 1 m then mprod c (seq 0 m) else if Nat.eqb m 1 then c 0%nat else Some 1.

(** problems/UF11/problem.py:77-80 ([gv] is the value of [g]); [f_dims] is 5. *)
Definition base_fit_up (gv : R) (zb : list R) (m : nat) : option R :=
  let* c := base_fit_cos zb (m - 1) in
  let* s := (if Nat.ltb m 5 then let* v := get zb (m - 1) in Some (sin v) else Some 1) in
  Some ((1 + gv) * c * s + 1).

(** problems/UF11/problem.py:83-84. *)
Definition base_fit_bottom (gv : R) (zb : list R) (m : nat) : option R :=
  let* s := S_ zb (m - 1) in let* u := base_fit_up gv zb m in Some (s * u).

(** problems/UF11/problem.py:87-91. *)
Definition all_non_negative (zs : list R) : bool :=
  forallb (fun v => if Rlt_dec v 0 then false else true) zs.

(** problems/UF11/problem.py:94-97 and problems/UF12/problem.py:96-99: UF11 hands the stretched
    vector to [g], UF12 the rotated one. *)
Definition base_fit11 (M : list (list R)) (lambdas x : list R) (m : nat) : option R :=
  let* zs := z M x in
  let* zb := z_bis lambdas zs in
  let* gv := g11 zb in
  if all_non_negative zs then base_fit_up gv zb m else base_fit_bottom gv zb m.
(** problems/UF12/problem.py:96-99. *)
Definition base_fit12 (M : list (list R)) (lambdas x : list R) (m : nat) : option R :=
  let* zs := z M x in
  let* zb := z_bis lambdas zs in
  let* gv := g12 zs in
  if all_non_negative zs then base_fit_up gv zb m else base_fit_bottom gv zb m.

(** problems/UF11/problem.py:100-111. *)
Definition rotated (fit : list R -> nat -> option R) (xmin xmax : list R) (front : list (list R)) : problem :=
  mk (combine xmin xmax) (map (fun m x => fit x m) (seq 1 5)) (Some front).

(** problems/UF11/R2_DTLZ2_M_30D.dat. Read at problems/UF11/problem.py:30. *)
Definition uf11_matrix : list (list Z) :=
  [[128; 2165; 4374; (-800); 886; (-2015); 1071; 2886; 2354; 2785; (-1748); 2147; 1649; (-3043); 5316; 0; 0; 0; 0;
    0; 0; 0; 0; 0; 0; 0; 0; 0; 0; 0];
   [4813; 2420; (-3663); (-420); (-88); (-4945); (-3073); 1990; 441; (-627); 191; 3880; (-618); (-319); (-1833); 0;
    0; 0; 0; 0; 0; 0; 0; 0; 0; 0; 0; 0; 0; 0];
   [4816; (-2254); 663; 4801; 2009; (-8); (-1501); 269; (-2037); 4334; (-2157); (-3175); (-923); 1451; 1118; 0; 0;
    0; 0; 0; 0; 0; 0; 0; 0; 0; 0; 0; 0; 0];
   [(-876); (-2667); (-63); 2114; 4506; 823; (-125); 2313; 840; (-2376); 1938; (-30); 3391; 863; 1231; 0; 0; 0; 0;
    0; 0; 0; 0; 0; 0; 0; 0; 0; 0; 0];
   [(-1025); 4011; (-117); 2076; 2585; 1124; (-288); 3095; (-6146); (-2376); 1938; (-30); 3391; 863; 1231; 0; 0; 0;
    0; 0; 0; 0; 0; 0; 0; 0; 0; 0; 0; 0];
   [4543; (-2761); (-2985); (-2837); 634; 1070; 2996; (-2690); (-1634); (-1452); 1799; (-14); 2394; (-2745); 3969;
    0; 0; 0; 0; 0; 0; 0; 0; 0; 0; 0; 0; 0; 0; 0];
   [(-1422); (-4364); 751; (-2235); 3966; (-252); 908; 477; (-2254); 1801; (-552); 5770; (-396); 3765; (-522); 0;
    0; 0; 0; 0; 0; 0; 0; 0; 0; 0; 0; 0; 0; 0];
   [3542; (-2245); 3497; (-1609); (-1107); 79; 2241; 4517; 1309; (-3355); (-1123); (-1831); 3000; 2045; (-3191); 0;
    0; 0; 0; 0; 0; 0; 0; 0; 0; 0; 0; 0; 0; 0];
   [5; 377; (-2808); (-641); 1316; 2191; 207; 3308; 4117; 3839; 5775; (-1219); 1192; 2435; 414; 0; 0; 0; 0; 0; 0;
    0; 0; 0; 0; 0; 0; 0; 0; 0];
   [(-1177); (-1); (-1992); (-4533); 4234; (-191); (-3740); 1325; 972; (-2042); (-3493); (-4018); (-1087); 918;
    2217; 0; 0; 0; 0; 0; 0; 0; 0; 0; 0; 0; 0; 0; 0; 0];
   [1818; 3022; (-1388); (-2380); (-773); 6463; 450; 1030; (-958); 2837; (-3969); 1779; (-251); (-1543); (-2452);
    0; 0; 0; 0; 0; 0; 0; 0; 0; 0; 0; 0; 0; 0; 0];
   [(-1889); (-4397); (-2206); 981; (-5203); 1325; (-3427); 4242; (-1271); (-291); (-795); 1213; 565; (-1092);
    2720; 0; 0; 0; 0; 0; 0; 0; 0; 0; 0; 0; 0; 0; 0; 0];
   [(-1808); (-624); (-2689); 2289; 1128; (-844); (-549); (-2202); 2450; 825; (-3319); 513; 7523; 43; (-1472); 0;
    0; 0; 0; 0; 0; 0; 0; 0; 0; 0; 0; 0; 0; 0];
   [(-983); 611; (-4145); 3017; 410; (-703); 6250; 2449; 1307; (-1714); (-3045); 218; (-2837); 1408; 1633; 0; 0; 0;
    0; 0; 0; 0; 0; 0; 0; 0; 0; 0; 0; 0];
   [2026; 324; 1496; 3129; 1437; 4331; (-2629); (-1498); 3746; (-4366); 163; 3316; (-697); 1833; 2412; 0; 0; 0; 0;
    0; 0; 0; 0; 0; 0; 0; 0; 0; 0; 0];
   [0; 0; 0; 0; 0; 0; 0; 0; 0; 0; 0; 0; 0; 0; 0; 10000; 0; 0; 0; 0; 0; 0; 0; 0; 0; 0; 0; 0; 0; 0];
   [0; 0; 0; 0; 0; 0; 0; 0; 0; 0; 0; 0; 0; 0; 0; 0; 10000; 0; 0; 0; 0; 0; 0; 0; 0; 0; 0; 0; 0; 0];
   [0; 0; 0; 0; 0; 0; 0; 0; 0; 0; 0; 0; 0; 0; 0; 0; 0; 10000; 0; 0; 0; 0; 0; 0; 0; 0; 0; 0; 0; 0];
   [0; 0; 0; 0; 0; 0; 0; 0; 0; 0; 0; 0; 0; 0; 0; 0; 0; 0; 10000; 0; 0; 0; 0; 0; 0; 0; 0; 0; 0; 0];
   [0; 0; 0; 0; 0; 0; 0; 0; 0; 0; 0; 0; 0; 0; 0; 0; 0; 0; 0; 10000; 0; 0; 0; 0; 0; 0; 0; 0; 0; 0];
   [0; 0; 0; 0; 0; 0; 0; 0; 0; 0; 0; 0; 0; 0; 0; 0; 0; 0; 0; 0; 10000; 0; 0; 0; 0; 0; 0; 0; 0; 0];
   [0; 0; 0; 0; 0; 0; 0; 0; 0; 0; 0; 0; 0; 0; 0; 0; 0; 0; 0; 0; 0; 10000; 0; 0; 0; 0; 0; 0; 0; 0];
   [0; 0; 0; 0; 0; 0; 0; 0; 0; 0; 0; 0; 0; 0; 0; 0; 0; 0; 0; 0; 0; 0; 10000; 0; 0; 0; 0; 0; 0; 0];
   [0; 0; 0; 0; 0; 0; 0; 0; 0; 0; 0; 0; 0; 0; 0; 0; 0; 0; 0; 0; 0; 0; 0; 10000; 0; 0; 0; 0; 0; 0];
   [0; 0; 0; 0; 0; 0; 0; 0; 0; 0; 0; 0; 0; 0; 0; 0; 0; 0; 0; 0; 0; 0; 0; 0; 10000; 0; 0; 0; 0; 0];
   [0; 0; 0; 0; 0; 0; 0; 0; 0; 0; 0; 0; 0; 0; 0; 0; 0; 0; 0; 0; 0; 0; 0; 0; 0; 10000; 0; 0; 0; 0];
   [0; 0; 0; 0; 0; 0; 0; 0; 0; 0; 0; 0; 0; 0; 0; 0; 0; 0; 0; 0; 0; 0; 0; 0; 0; 0; 10000; 0; 0; 0];
   [0; 0; 0; 0; 0; 0; 0; 0; 0; 0; 0; 0; 0; 0; 0; 0; 0; 0; 0; 0; 0; 0; 0; 0; 0; 0; 0; 10000; 0; 0];
   [0; 0; 0; 0; 0; 0; 0; 0; 0; 0; 0; 0; 0; 0; 0; 0; 0; 0; 0; 0; 0; 0; 0; 0; 0; 0; 0; 0; 10000; 0];
   [0; 0; 0; 0; 0; 0; 0; 0; 0; 0; 0; 0; 0; 0; 0; 0; 0; 0; 0; 0; 0; 0; 0; 0; 0; 0; 0; 0; 0; 10000]]%Z.

(** problems/UF12/R2_DTLZ3_M_30D.dat. Read at problems/UF12/problem.py:30. *)
Definition uf12_matrix : list (list Z) :=
  [[(-1565); (-2418); 5427; (-2191); 2522; (-563); 1991; 1166; 2140; (-973); (-755); 4073; 4279; (-1876); (-968);
    0; 0; 0; 0; 0; 0; 0; 0; 0; 0; 0; 0; 0; 0; 0];
   [1477; (-2396); (-22); 4180; 2675; (-1365); (-729); 4761; (-685); 2105; 1388; 1465; (-256); 292; 5767; 0; 0; 0;
    0; 0; 0; 0; 0; 0; 0; 0; 0; 0; 0; 0];
   [322; 3727; (-467); 1651; (-672); 638; (-1168); 4055; 6714; (-1948); (-1451); 1734; (-2788); (-769); (-1433); 0;
    0; 0; 0; 0; 0; 0; 0; 0; 0; 0; 0; 0; 0; 0];
   [(-3688); 1935; 3691; 4298; 2340; 2593; (-3081); (-2013); (-2779); (-932); 3; 149; (-2303); (-3261); (-517); 0;
    0; 0; 0; 0; 0; 0; 0; 0; 0; 0; 0; 0; 0; 0];
   [580; (-609); 4; (-1831); 3; 4742; (-2530); (-750); 839; 1606; 6020; 4103; (-857); 2954; (-819); 0; 0; 0; 0; 0;
    0; 0; 0; 0; 0; 0; 0; 0; 0; 0];
   [(-2145); (-56); (-251); 2288; (-4870); (-5486); 1253; (-1512); (-390); 722; 3074; 4160; (-1304); (-1610);
    (-848); 0; 0; 0; 0; 0; 0; 0; 0; 0; 0; 0; 0; 0; 0; 0];
   [2557; (-1087); 679; (-3120); 3567; (-4644); (-3535); 1060; (-2158); (-1330); (-154); 911; (-4154); 356;
    (-3085); 0; 0; 0; 0; 0; 0; 0; 0; 0; 0; 0; 0; 0; 0; 0];
   [2303; 4996; 1883; 1870; 1850; (-216); 4409; (-573); (-2396); 1471; (-1540); 2731; (-398); 4505; (-1131); 0; 0;
    0; 0; 0; 0; 0; 0; 0; 0; 0; 0; 0; 0; 0];
   [(-1576); (-23); 2588; 2105; 2250; (-2978); 175; (-1157); 3717; 562; 4068; (-5081); 718; 3443; (-1488); 0; 0; 0;
    0; 0; 0; 0; 0; 0; 0; 0; 0; 0; 0; 0];
   [1047; (-568); (-2771); 3803; 46; 188; (-1500); 2053; (-2290); (-4582); 1191; 639; 4946; 1121; (-4018); 0; 0; 0;
    0; 0; 0; 0; 0; 0; 0; 0; 0; 0; 0; 0];
   [3943; (-374); 3004; 1472; (-2988); 443; (-2483); 1350; (-160); 5834; (-1095); (-1398); 1711; (-1867); (-3518);
    0; 0; 0; 0; 0; 0; 0; 0; 0; 0; 0; 0; 0; 0; 0];
   [1244; (-6134); 1823; 3012; (-1968); 1616; 1025; (-1972); 1162; (-2079); (-3062); 585; (-3286); 3187; (-812); 0;
    0; 0; 0; 0; 0; 0; 0; 0; 0; 0; 0; 0; 0; 0];
   [1832; (-1559); (-4327); 2059; 4677; 317; 2233; (-3589); 2393; 2468; 148; 1193; (-279); (-3600); (-2261); 0; 0;
    0; 0; 0; 0; 0; 0; 0; 0; 0; 0; 0; 0; 0];
   [5027; 1935; 1571; 503; (-503); (-1443); (-3080); (-4939); 1847; (-2762); 42; 960; 2239; (-579); 3840; 0; 0; 0;
    0; 0; 0; 0; 0; 0; 0; 0; 0; 0; 0; 0];
   [3948; (-2); 2172; (-293); (-835); 1614; 4559; 1626; (-1155); (-3087); 4331; (-2223); (-2213); (-3658); (-188);
    0; 0; 0; 0; 0; 0; 0; 0; 0; 0; 0; 0; 0; 0; 0];
   [0; 0; 0; 0; 0; 0; 0; 0; 0; 0; 0; 0; 0; 0; 0; 10000; 0; 0; 0; 0; 0; 0; 0; 0; 0; 0; 0; 0; 0; 0];
   [0; 0; 0; 0; 0; 0; 0; 0; 0; 0; 0; 0; 0; 0; 0; 0; 10000; 0; 0; 0; 0; 0; 0; 0; 0; 0; 0; 0; 0; 0];
   [0; 0; 0; 0; 0; 0; 0; 0; 0; 0; 0; 0; 0; 0; 0; 0; 0; 10000; 0; 0; 0; 0; 0; 0; 0; 0; 0; 0; 0; 0];
   [0; 0; 0; 0; 0; 0; 0; 0; 0; 0; 0; 0; 0; 0; 0; 0; 0; 0; 10000; 0; 0; 0; 0; 0; 0; 0; 0; 0; 0; 0];
   [0; 0; 0; 0; 0; 0; 0; 0; 0; 0; 0; 0; 0; 0; 0; 0; 0; 0; 0; 10000; 0; 0; 0; 0; 0; 0; 0; 0; 0; 0];
   [0; 0; 0; 0; 0; 0; 0; 0; 0; 0; 0; 0; 0; 0; 0; 0; 0; 0; 0; 0; 10000; 0; 0; 0; 0; 0; 0; 0; 0; 0];
   [0; 0; 0; 0; 0; 0; 0; 0; 0; 0; 0; 0; 0; 0; 0; 0; 0; 0; 0; 0; 0; 10000; 0; 0; 0; 0; 0; 0; 0; 0];
   [0; 0; 0; 0; 0; 0; 0; 0; 0; 0; 0; 0; 0; 0; 0; 0; 0; 0; 0; 0; 0; 0; 10000; 0; 0; 0; 0; 0; 0; 0];
   [0; 0; 0; 0; 0; 0; 0; 0; 0; 0; 0; 0; 0; 0; 0; 0; 0; 0; 0; 0; 0; 0; 0; 10000; 0; 0; 0; 0; 0; 0];
   [0; 0; 0; 0; 0; 0; 0; 0; 0; 0; 0; 0; 0; 0; 0; 0; 0; 0; 0; 0; 0; 0; 0; 0; 10000; 0; 0; 0; 0; 0];
   [0; 0; 0; 0; 0; 0; 0; 0; 0; 0; 0; 0; 0; 0; 0; 0; 0; 0; 0; 0; 0; 0; 0; 0; 0; 10000; 0; 0; 0; 0];
   [0; 0; 0; 0; 0; 0; 0; 0; 0; 0; 0; 0; 0; 0; 0; 0; 0; 0; 0; 0; 0; 0; 0; 0; 0; 0; 10000; 0; 0; 0];
   [0; 0; 0; 0; 0; 0; 0; 0; 0; 0; 0; 0; 0; 0; 0; 0; 0; 0; 0; 0; 0; 0; 0; 0; 0; 0; 0; 10000; 0; 0];
   [0; 0; 0; 0; 0; 0; 0; 0; 0; 0; 0; 0; 0; 0; 0; 0; 0; 0; 0; 0; 0; 0; 0; 0; 0; 0; 0; 0; 10000; 0];
   [0; 0; 0; 0; 0; 0; 0; 0; 0; 0; 0; 0; 0; 0; 0; 0; 0; 0; 0; 0; 0; 0; 0; 0; 0; 0; 0; 0; 0; 10000]]%Z.

(** problems/UF11/R2_DTLZ2_lamda_30D.dat, first line. *)
Definition uf11_lambdas : list Z :=
  [113; 105; 117; 119; 108; 110; 101; 107; 111; 109; 120; 108; 101; 105; 116; 1000; 1000; 1000; 1000; 1000; 1000;
   1000; 1000; 1000; 1000; 1000; 1000; 1000; 1000; 1000]%Z.

(** problems/UF12/R2_DTLZ3_lamda_30D.dat, first line. *)
Definition uf12_lambdas : list Z :=
  [113; 105; 117; 119; 108; 110; 101; 107; 111; 109; 120; 108; 101; 105; 116; 1000; 1000; 1000; 1000; 1000; 1000;
   1000; 1000; 1000; 1000; 1000; 1000; 1000; 1000; 1000]%Z.

(** problems/UF11/R2_DTLZ2_bound_30D.dat, first line (the same in problems/UF12/R2_DTLZ3_bound_30D.dat). *)
Definition lower_bounds : list Z :=
  [(-1773); (-1846); (-1053); (-2370); (-1603); (-1878); (-1677); (-935); (-1891); (-964); (-885); (-1690);
   (-2235); (-1541); (-720); 0; 0; 0; 0; 0; 0; 0; 0; 0; 0; 0; 0; 0; 0; 0]%Z.

(** the second line. *)
Definition upper_bounds : list Z :=
  [1403; 1562; 2009; 976; 1490; 1334; 1074; 2354; 1462; 2372; 2267; 1309; 842; 1665; 2476; 1000; 1000; 1000; 1000;
   1000; 1000; 1000; 1000; 1000; 1000; 1000; 1000; 1000; 1000; 1000]%Z.

(** problems/UF11/problem.py:104-111; the front is a parameter. *)
Definition UF11 (front : list (list R)) : problem :=
  rotated (base_fit11 (map (scaled 10000) uf11_matrix) (scaled 1000 uf11_lambdas))
    (scaled 1000 lower_bounds) (scaled 1000 upper_bounds) front.
(** problems/UF12/problem.py:106-113; the front is a parameter. *)
Definition UF12 (front : list (list R)) : problem :=
  rotated (base_fit12 (map (scaled 10000) uf12_matrix) (scaled 1000 uf12_lambdas))
    (scaled 1000 lower_bounds) (scaled 1000 upper_bounds) front.
