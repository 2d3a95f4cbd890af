(** Symmetric quadrature formulas over the unit disk.
    xii/assembler/disk_quadrature.py:3-119

    Numbers are integers in units of 10^-15: the tables have 15 decimals, and the
    binary doubles differ from the decimals by less than one unit (by at most
    2*10^-15 for the two entries 10.08...), which is not modelled. *)
From Coq Require Export ZArith.
From Verif Require Import Base.
Local Open Scope Z_scope.

(** (weight, x, y, type) *)
Notation row := (Z * Z * Z * Z)%type (only parsing).

(** disk_quadrature.py:17-83 *)
Definition table1 : list row :=
  [(3141592653589793, 0, 0, 1)].
Definition table3 : list row :=
  [(785398163397448, 707106781186548, 0, 2)].
Definition table5 : list row :=
  [(732786462492640, 650115167343736, 0, 2);
   (52611700904808, 888073833977115, 888073833977115, 3)].
Definition table7 : list row :=
  [(232710566932577, 866025403784439, 0, 2);
   (387077796006226, 322914992067400, 322914992067400, 3);
   (165609800458645, 644171310389465, 644171310389465, 3)].
Definition table9 : list row :=
  [(71488826617391, 952458896434417, 0, 2);
   (327176874928167, 415187657878755, 0, 2);
   (5591341512851, 834794942216211, 834794942216211, 3);
   (190570560169519, 740334457173511, 379016937530835, 4)].
Definition table11 : list row :=
  [((-103220620849181), 0, 0, 1);
   (561120485457, 10081713912649978, 10081713912649978, 3);
   (234185472691706, 329855087221954, 329855087221954, 3);
   (123731369524117, 163309595229403, 163309595229403, 3);
   (194337435615691, 582963679648472, 582963679648472, 3);
   (129193960146342, 862551409331466, 191706749096887, 4)].
Definition table13 : list row :=
  [(156239869837333, 283402832348825, 0, 2);
   (69447409266977, 920575474036251, 0, 2);
   (138145910534871, 649007230578002, 0, 2);
   (43376583887155, 677355106028069, 677355106028069, 3);
   (150228334140010, 412672216763289, 412672216763289, 3);
   (18199321926118, 938694583835123, 335767600829539, 4);
   (95780705939433, 752042776803954, 379717011170077, 4)].
Definition table15 : list row :=
  [(125290208564338, 252863797091293, 0, 2);
   (16712625496982, 989746802511614, 0, 2);
   (109500391126365, 577728928444958, 0, 2);
   (66237455796397, 873836956645035, 0, 2);
   (26102860184358, 689299380791136, 689299380791136, 3);
   (66000934661100, 597614304667208, 597614304667208, 3);
   (127428372681720, 375416824626170, 375416824626170, 3);
   (42523065826681, 883097111318591, 365790800400663, 4);
   (81539591616413, 707438744960070, 293030722710664, 4)].
Definition table17 : list row :=
  [(34218732123473, 61843487605, 0, 2);
   (16529016194279, 980790725733799, 0, 2);
   (128441621643862, 536380801743208, 0, 2);
   (57523498415081, 859692027602019, 0, 2);
   (19445945395, 890507932479849, 890507932479849, 3);
   (29882788585530, 597728327225623, 597728327225623, 3);
   (86625257876566, 472638508474430, 472638508474430, 3);
   (135289763196368, 256583368615187, 256583368615187, 3);
   (30442743336826, 915666628257231, 290750921163427, 4);
   (36355668706617, 775130682141990, 550400039905684, 4);
   (81635607665003, 722293685844502, 274942296086914, 4)].
Definition table19 : list row :=
  [((-336959088794964), 860125674956782, 0, 2);
   ((-252102704609804), 860125119919931, 0, 2);
   (131164048626801, 547071550894734, 0, 2);
   ((-10919895825604), 927565701076356, 927565701076356, 3);
   (10744805554708, 928162274936277, 928162274936277, 3);
   (4798012482265, 755935467576794, 755935467576794, 3);
   (72711702889623, 618205357502056, 618205357502056, 3);
   (115883691032049, 398705530364909, 398705530364909, 3);
   (123519504105529, 175541035301314, 175541035301314, 3);
   (22426281825809, 959568314399471, 155454100986327, 4);
   (33906878046312, 851375493057155, 435023471372536, 4);
   (332072154179621, 858667011279674, 30948726948493, 4);
   (74873729916680, 711569636216547, 300178547400372, 4)].

(** disk_quadrature.py:17-85 *)
Definition template (degree : Z) : res (list row) :=
  if degree =? 1 then Ok table1
  else if degree =? 3 then Ok table3
  else if degree =? 5 then Ok table5
  else if degree =? 7 then Ok table7
  else if degree =? 9 then Ok table9
  else if degree =? 11 then Ok table11
  else if degree =? 13 then Ok table13
  else if degree =? 15 then Ok table15
  else if degree =? 17 then Ok table17
  else if degree =? 19 then Ok table19
  else Err ValueError.

(** disk_quadrature.py:89-117: the points of one row; all have its weight *)
Definition expand (r : row) : res (list (Z * Z)) :=
  let '(_, x, y, t) := r in
  if t =? 1 then Ok [(x, y)]
  else if t =? 2 then (do _ <- py_assert (Z.abs y <? 10 ^ 5); Ok [(x, 0); (- x, 0); (0, x); (0, - x)])
  else if t =? 3 then (do _ <- py_assert (Z.abs (x - y) <? 10 ^ 5); Ok [(x, x); (x, - x); (- x, x); (- x, - x)])
  else if t =? 4 then Ok [(x, y); (x, - y); (- x, y); (- x, - y); (y, x); (y, - x); (- y, x); (- y, - x)]
  else Ok [].
Definition from_template (data : list row) : res (list (Z * Z) * list Z) :=
  do pts <- mapM expand data;
  Ok (concat pts, flat_map (fun rp => repeat (fst (fst (fst (fst rp)))) (length (snd rp))) (combine data pts)).

(** disk_quadrature.py:3-15: an even degree is raised by one; the statement
    [degree == 19] in line 15 is a comparison and changes nothing *)
Definition adjust (degree : Z) : Z :=
  let degree := if degree mod 2 =? 0 then degree + 1 else degree in
  if degree >? 19 then degree else degree.
Definition disk_quadrature (degree : Z) : res (list (Z * Z) * list Z) :=
  do data <- template (adjust degree);
  from_template data.
