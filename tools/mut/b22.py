F="Model/Solid64.v"
MUT=[
(F,"length64","rnd64 (a * a) + rnd64 (b * b)","rnd64 (a * a) - rnd64 (b * b)","C129: length of difference",[]),
(F,"length64","rnd64 (sqrt (rnd64","rnd64 (id (rnd64","C129: squared length",[]),
(F,"dtorus64","length64 x z - r1","length64 x y - r1","C129: torus axis",[]),
(F,"dtorus64","length64 x z - r1)) y - r2","length64 x z - r2)) y - r1","C129: torus radii swapped",[]),
(F,"dprism64","(rnd64 (Rabs z - h))","(rnd64 (z - h))","C129: prism end not absolute",[]),
(F,"dprism64","866025 / 1000000","860025 / 1000000","C129: prism slope",[]),
(F,"dprism64","(- y) - rnd64","(y) - rnd64","C129: prism bottom",[]),
(F,"dprism64","rnd64 (b * (5 / 10))","rnd64 b","C129: prism base not halved",[]),
(F,"dcylinder64","Rabs y - rnd64 (h / 2)","Rabs y - rnd64 h","C129: cylinder height not halved",[]),
(F,"dcylinder64","Rmin (Rmax d0 d1) 0 +","Rmin (Rmin d0 d1) 0 +","C129: inside distance to the far face",[]),
(F,"dcylinder64","Rmin (Rmax d0 d1) 0 +","0 +","C129: no inside distance",[]),
(F,"dcylinder64","(Rmax d0 0) (Rmax d1 0)","(Rmax d0 0) (Rmax d0 0)","C129: cylinder end dropped",[]),
]
