# DefDAP in Rocq: design

## What this is

A shallow Gallina model of the Python package in `/repo/defdap`, one group of
files per area, together with theorems about the model.  The code is not run;
the only tie between model and code is reading.  Every definition cites the
file and lines it models and says where it simplifies.

## Layout (`rocq/theories`)

For each area `X`:

* `X_Model.v`  the functions, mirrored branch by branch; exceptions are values
* `X_Spec.v`   the vocabulary of the property, independent of the model's helpers
* `X_Proofs.v` lemmas
* `X_Props.v`  the theorems `Cnn_...`, each followed by `Print Assumptions` and
  with an `Example` or lemma beside it that meets its hypotheses

`Py.v` holds the result type (`Ok v` / `Err exn`) and list helpers.

Naming: `Cnn_..._partial` is the property under the exact condition under which
the code keeps it; `Cnn_..._refuted` proves, with a witness, that the code does
not keep it in general.  Other names are claims that hold as stated.

## Modelling conventions

* Integers are `Z`; sizes and list positions are `nat` or `Z`.  Fixed-width
  integers are modelled only where a property is about wrap-around (int8 in
  the crystal index code).
* 2-D numpy arrays are total functions `Z -> Z -> A` together with their shape;
  any access outside the shape is an explicit `Err` in the models of code that
  can make one.  Negative indices wrap as in numpy where the code can make one.
* Python exceptions are constructors of one type; a function that may raise
  returns `res A`.
* Loops are folds or structural recursion; `while` loops use fuel, fuel
  exhaustion is its own error value, and a theorem shows it is never returned.
* Floating point: real-number code is modelled over Coq's `R`.  Rounding and
  overflow are modelled for misorientations (between neighbours, KAM, to the reference of a grain), boundaries, grains, orientations from
  Euler angles and DIC strains only (C126, C127, C129 to C136, over Flocq's IEEE 754
  numbers), which is also what ties those real-number
  models to the numbers the code computes with.  NaN, infinities and signed zero are modelled only
  where a property is about them (`None` for nan in most places, the type `fl`
  in `QuatEq_Model.v`).
* Mutable objects are values that are returned; aliasing is modelled with an
  explicit heap where a property is about aliasing (Datastore links, shared
  colour lists, quaternions in sets).
* Sets and dictionaries whose order is unspecified: theorems quantify over
  every order.
* Text files are lists of characters or lines (`Text_Model.v`), number
  formatting and parsing are modelled on digits.

## Plan per property

| id | model | proof |
|----|-------|-------|
| C01 C02 C03 C06 | `flood_fill`, `find_first`, `Map.find_grains` over functional grids | loop invariant of the explicit stack; labels = reachability classes; fuel bound |
| C04 | `find_boundaries` over R | max/acos monotonicity; path refinement |
| C05 | `BoundarySet` images/points with numpy's empty-tuple indexing rule | round trip for non-empty sets, `_refuted` for the empty one |
| C07 | `flood_fill_dic`, `hrdic.Map.find_grains` | as C01 |
| C08 | warp branch of `hrdic.Map.find_grains` | relabelling lemma over sorted unique labels |
| C09 C10 C74 | `build_neighbour_network`, `BoundarySegment` | raster fold invariant |
| C11-C17 C76 | `Datastore` as a state machine with a heap of stores | refinement to a map; graph search with a visited set |
| C18-C23 C26 C30 | `Quat` over R | ring and trigonometric identities |
| C24 | symmetry lists | exact arithmetic in Z[sqrt 2], Z[sqrt 3], computed and lifted to R |
| C25 C27 | `mis_ori`, `calc_sym_eqvs`, `calc_average_ori` | maxima over group translates |
| C28 | `calc_fund_dirs`, `calc_ipf_colours` | fundamental sectors of the two groups, case analysis by sector; angle lemmas |
| C29 | `__eq__`, `__hash__`, sets of quaternions | structural induction; heap for mutation |
| C31-C39 C75 C82 | `crystal_utils`, `crystal` | ring identities, gcd lemmas, finite data by computation |
| C40-C45 C78 | `base.Map`, `base.Grain` | list inductions |
| C46-C49 C79-C81 | `hrdic.Map` crop, mask, strain, warping | histories as folds; linear algebra |
| C95 C96 C97 | equivalent indices, their texts, labels of pole plots | tables of integer matrices for all symmetries; prefix decoding |
| C98 C99 | what grains keep between calls; references passed between linked maps | state machine over all histories: every stored field is absent or fresh |
| C100 C101 C102 C103 | misorientation, IPF and per-grain plots, their labels and scales | loops that write lists to pixels of disjoint grains or masks; composed with the results on grains (C98), averages (C40, C43) and directions (C28) |
| C104 | components, Euler and IPF colours as a grain and as a map show them | selecting a component commutes with selecting points; writing points in a box; C84, C101 for colours |
| C105 | calls on a DIC map that change what it shows: crops, mask, pattern, links, grains, correlation values | a state machine whose steps are the calls; each observation after any history equals a function of the last settings |
| C106 | mouse events that draw a line, the samples of a profile and their values | induction over events; the sampling and interpolation formulas against a specification of the value of an image at a real position |
| C107 | `print_stats_table`: percentiles of the numbers, rows of tensor indices | sorting lemmas; ranks characterised by counting; index order |
| C108 | State of an EBSD map: measured data and stored results, with every reading and generating call, rotation, filtering and direct calls | Reading only settles what would be shown anyway (a relation preserved by each call); an order of dependence makes the invariant for histories; witnesses on 2 x 2 maps |
| C109 | The base class's neighbour network as a list of edges built from boundary pixels | Induction over boundary pixels and over pairs of labels around each; witness for label 0 |
| C110 | a world of figures, axes with what is drawn on them and colour bars; `MapPlot.create`, `GrainPlot.create`, `clear` as sequences of drawing steps that may fail | one lemma per step on an arbitrary plot, composed; independent list of what was asked for |
| C111 | the inspector of C63/C86 with its window: arrows on the picture, both lists, ids, the number of connected handlers; partial and full redrawings as in the code | invariant over all events, conditional on the id being on the map; drawing anew restores everything |
| C112 | `plot_unit_cell` and the two shipped cells over the reals; the picture as a list of polygons in sample coordinates | corners taken back by the orientation; each symmetry operator shown to permute vertices and faces; lattice points from `create_l_matrix` |
| C113 | `PolePlot` frame, `add_line`, `label_point`, `add_points`, `add_colour_bar` and `Quat.plot_ipf` over the reals; a plot as lists of polylines, texts and layers | images of directions in closed form for both projections; frame region shown equal to the image of the triangle; points from C28 |
| C114 | `plot_rdr`, `calc_rdr` with its window, on top of the models of the inspector and of what a grain keeps (RdrPlot_Model) | inductions over planes and systems for table and labels; the regression lemmas of C66 for the fit |
| C115 | `SlipBand_Model`: the array arithmetic of `calc_slip_bands`, with the Radon transform and peak finder as parameters | scaling of rays, support and profile; a flat profile from equal ratios of rays |
| C116 | `SchmidMap_Model`: calculations over all grains with the grain at which they fail, and the map of factors | induction over the grains; the choice of systems commutes with the calculation |
| C117 | PhaseMap_Model: images with limits and colour tables, legend, phase map, phase boundary map, grain numbers | legend entry and pixel evaluate the same layer at the same value; the places in the table of n+1 values are apart by more than one entry; C78 for the numbers |
| C118 | DicLoad_Model: choice of loader, loaded arrays, strains of the new map, correlation values, scale | composes C61 (positions of rows) with C48 (exact gradients); greatest shear by A sin + B cos |
| C119 | plots, windows, selection and origin of a map as a state machine (Session_Model: locating grains, neighbours, setting origins, closing windows, errors of drawing); the grain seen in a history is the one clicked last (Session_Spec: last such event) | induction over histories from the end; refutations by short histories and, for the windows, by one history of every length |
| C120 | `load_data` and `save` between the files of Ctf_Model and the maps of EbsdState_Model (EbsdLoad_Model) | round trip by C57, misorientations moved by at most 0.003 degrees by the triangle inequality, grains by extensionality of the flood fill in the phases (FloodExt_Proofs.v); a second round trip keeps every rotation as the angles of a rotation with three-decimal angles have three decimals |
| C121 | set_crop histories, link_ebsd_map, warp_to_dic_frame with order 0 (nearest pixel), find_grains 'warp', composed; the estimate of a transform is a parameter | homologous points stay on the material (C47), so an exact or shift-equivariant estimate moves along; labels then by C08. Least squares shown exact and equivariant from the normal equations. Default update_homog_points refuted for every exact estimate |
| C122 | two EBSD maps with equivalent orientations in other axes, and a map after rotate_data, through find_boundaries and find_grains | misorientations agree because symmetry operators form a group and a fixed rotation cancels, so the same neighbours are marked and the same regions connected; turned: marks of turned neighbours, then connectedness and sizes through the turn |
| C123 | objects with four components (numbers or nan) in a heap; the constructor, operators, in-place changes and item assignment as statements | induction over histories: frame property per object, freshness, northern invariant; the component rows of extract_quat_comps columnwise |
| C124 | EBSD grains as objects in a heap, lists and labels of both maps with their data stores, links from DIC to EBSD grains, calls on grains of either map | invariant over histories: lists and links fixed by calls that find no grains, calls change one object; equality of whole steps through either map; frame argument for grains found anew |
| C125 | DIC `find_grains` by flood fill with the DIC labels warped to the EBSD map and the mode of the EBSD labels under each grain (DicFlood_Model) | position-wise over the grain list: warped label = k+1 iff the EBSD pixel lies in grain k (C07 + C121 lemmas), then mode; inverse of affine fit by uniqueness |
| C126 | `find_boundaries`, `find_grains`, `mis_ori`, `__mul__` and `normalise` on IEEE 754 double precision numbers (Flocq), sums of products in any order, `np.arccos` any function within 2^-50 | rounding error of each operation; cosines within 2^-44, angles by a bound on how far arccos spreads; compared with the real number model pixel by pixel |
| C127 | `create_many_quats` on arrays of 32 bit Euler angles: halves, sums, differences, products in binary32 (Flocq), widening to binary64, the hemisphere; np.cos and np.sin as any functions within 2^-23 | rounding errors of each step, sine and cosine 1-Lipschitz, Cauchy-Schwarz, a bound on differences of arc cosines, then C126; the witness by bounding pi to 1e-9 and rounding at midpoints |
| C128 | loading a .cpr/.crc pair from paths to arrays: pathlib suffixes, header keys to metadata and phases, record layout, little endian bytes to IEEE single precision numbers (Flocq), EDX maps, choice of the loader | header lemmas of C60 and layout lemmas of C59 composed; bytes of a number read back by induction on their number and Flocq's bit codec; grains by C127 |
| C129 | Deformation gradient, Green strain and effective shear of DIC maps on Flocq's IEEE 754 double precision numbers, with the order of einsum's sums left open (Strain64_Model) | forward error analysis relative to the exact model of C48; exact sums for whole displacements; propagation of nan through every operation |
| C130 | `calc_kam`, `calc_grod`, `calcMisOri`, `calc_sym_eqvs`, `conjugate` on IEEE 754 double precision numbers (Flocq), sums of products in any order, `np.arccos` any function within 2^-50 | rounding error of each step as in C126; the angle over its sine is 1-Lipschitz in the cosine (mean value theorem), so the axis is accurate once the root of 1 - t^2 is bounded away from zero; witnesses by computation |
| C131 | `normalise`, `calc_average_ori`, `calc_grod` without reference on IEEE 754 double precision numbers (Flocq), sums of products in any order | relative error of a sum of squares, its root and the quotient; induction over the points: coefficients bounded by twice the number of points, scalar parts monotone, error quadratic in the number of points; the choice among equivalents is that without rounding where it is clear by 1/100; witnesses by computation |
| C132 | `transform_vector`, `calc_average_schmid_factors`, cubic slip vectors on IEEE 754 double precision numbers (Flocq), sums of products in any order | errors of two products of quaternions; the rotated vector keeps its length; 4(l.p)(l.d) is at most the squares of l and p + d; nan spreads through every product |
| C133 | `calc_slip_traces` on IEEE 754 double precision numbers (Flocq), sums of products in any order, any arccos with error at most 2^-50 that gives nan outside -1..1 | errors of the two rotations and the cross product; a sum with one nonzero product is exact; the rounded root of a rounded sum of squares is at least each of the numbers, so the quotient is at most one; the intersection is the normal in sample coordinates turned by a quarter turn |
| C134 | `calc_rdr` of a grain on IEEE 754 double precision numbers (Flocq), sums of products in any order | error of the rotation (as for C132) carried through the quotient, whose divisor keeps at least 25/32 of its size; the horizontal cases by evaluation |
| C135 | `rot_matrix` on IEEE 754 double precision numbers (Flocq), with any square accurate to one unit in the last place (`x**2` calls the C library) | errors of each operation; the exact matrix of a quaternion of any length is a scaled rotation; opposite: products of opposites are equal to the last bit; conjugate: rounding to nearest is odd |
| C136 | lines 512-566 of `calc_nye` for one pixel on IEEE 754 double precision numbers (Flocq): distortion, Nye tensor, total of nine; which equivalent of the neighbour is chosen is left open | errors of the product and of the matrix (C135), then of each difference, quotient and sum relative to the unit |
| C50 C51 C93 C94 | `experiment` | state machine invariants over event histories |
| C52-C56 C70-C72 C83-C85 | `ebsd` KAM, Nye, rotation, filter, linker, slip traces, colours | locality lemmas; witnesses |
| C57-C62 C91 C92 | `file_readers`, `file_writers` on characters and lines | round trip, parser lemmas |
| C63-C66 C86 | `inspector` | histories of events, list inductions; witnesses |
| C67-C69 C77 C87-C90 | `plotting` projections, highlights, histograms; `report_progress` | trigonometry; trace equality; telescoping sums |
| C73 | linking of DIC grains | modal label lemmas |

## Results

The exact theorem names are in `MANIFEST.json`.

| id | property | status | files | note |
|----|----------|--------|-------|------|
| C01 | EBSD grains are exactly the boundary-free connected regions | proved | Flood_Props | Proved for maps at least 2x2 and any boundary images, phase image and minimum size. |
| C02 | EBSD grain list and label image describe the same partition | proved | Flood_Props | Proved, including NoDup, completeness and raster order of numbering. |
| C03 | Flood fill terminates and stays inside its arrays | partial | Flood_Props | Proved for maps at least 2 pixels in each direction; refuted for one-pixel-wide maps (every run reads outside the arrays). |
| C04 | Raising the misorientation tolerance only removes boundaries | partial | Boundary_Props | Marked boundaries are characterised exactly and shown monotone in the tolerance. Refinement of regions is proved when the higher tolerance leaves a boundary in x and in y, and refuted otherwise: with no boundary left the rebuilt boundary image marks every pixel. |
| C05 | A boundary set's image marks exactly its points | partial | Boundary_Props | Points are exact. The rebuilt image is exact for a non-empty point set and refuted for an empty one (image[()] = True marks the whole array), with the end-to-end effect on single crystal maps. |
| C06 | find_grains either returns a complete labelling or fails before mutating the map | partial | Flood_Props | Exact trichotomy proved; the full claim (always returns) is refuted: no indexed pixel gives ValueError, all grains below the minimum size gives IndexError. |
| C07 | DIC flood-fill grains partition the pixels | proved | FloodDic_Props | Proved in full, including which region takes a boundary pixel (first region in raster order among its left/upper neighbours) and sizes counting taken boundary pixels. The buffer slices handed to successive grains are disjoint views; the model holds them as separate lists. |
| C08 | Warped DIC grain labels are renumbered 1..n without mixing grains | proved | DicGrains_Props | Proved for any warped label image; the image warp itself (skimage) is outside the model. |
| C09 | The neighbour network has an edge exactly for grains that touch | partial | Boundary_Props | Edges are characterised exactly for every iteration order; the plain reading 'grains that touch' is refuted because contacts on the rim of the map are skipped. |
| C10 | Boundary segments hold each boundary point once, oriented from grain1 to grain2 | proved | Boundary_Props |  |
| C100 | A misorientation map shows each grain's own deviations | partial | MapView_Props | Proved for components 0..3. A component outside 0..3 is shown as component 0 while a grain's own plot refuses it (C100_component_refuted). |
| C101 | A pixel's IPF colour is that of its own orientation in its own phase | partial | MapView_Props | Proved for cubic phases, and for hexagonal ones when no pixel of the phase has the direction along its c axis (the window is widened for all then, see C28). Integer backgrounds cut every colour to integers; phase -1 colours pixels that are not indexed. |
| C102 | Plots of one value per grain show each grain's own value at its own place | partial | MapView_Props | Maps: proved for real values and for all grains or a list of them. Figures: proved for a cubic primary phase. A single grain number is refused although documented; grains of another phase are shown with the symmetry of the primary phase. |
| C103 | The colour bar label and the scale bar fit the data plotted | partial | MapView_Props | Content, scale and caller arguments proved; different labels proved for component numbers with one digit. Components counted from the end have another label, components with two digits can share one. |
| C104 | A grain's picture of a component is the map's picture cut out along the grain | partial | CompView_Props | All components of map data and Euler colours are proved in full. IPF colours of hexagonal grains agree only if no pixel of the phase has the direction along its c axis (then the other pixels of the array decide, see C28). The grain's own point list is laid out the other way round and its picture is wrong (C104_points_refuted). |
| C105 | What a DIC map shows after any history of calls depends only on the last settings | partial | DicState_Props | The pattern claim holds for every history. The shape claim needs homologous points that are pairs (otherwise a failing set_crop keeps the crop and not the shape); masks need an unchanged crop afterwards; boundaries need all links to one map (after re-linking they are the first map's, moved with the second's frame); grains need an unchanged crop, link and point list since first read (they are kept otherwise); refused correlation values are kept. Finding grains and warping are parameters. |
| C106 | A line profile shows the map along the line that was drawn | partial | Profile_Props | The curve is proved in full for images of one number per pixel (skimage's profile_line modelled: width 1, linear, mode nearest). The start is the last press on the plot, which is not the start of the drag when that was outside the plot (C106_outside_refuted), and values hidden by the mask are drawn (C106_hidden_refuted). |
| C107 | The statistics table lists the right percentiles of each component | partial | Stats_Props | The layout of the printed numbers (width, four decimals) and the rows printed before a failure are not modelled; a masked array is taken as its values. Partial because C107_percentile and C107_order take the list of values without nan from the model's own function; that it leaves out exactly the nan is shown only by the example C107_percentile_met, not by a theorem. |
| C108 | What an EBSD map shows after any history of calls | partial | EbsdState_Props | Stored boundaries, grains, KAM, GND and network are not recalculated: rotate_data leaves the grains of the map before turning (C108_rotate_refuted), a new tolerance leaves old grains (C108_tolerance_refuted), find_grains called directly replaces the list but not the label image (C108_direct_refuted). rotate_data without band contrast or slope fails with the Euler angles already turned (C108_half_refuted); filter_data on a map smaller than 5 x 5 fails after changing the orientations (C108_filter_refuted). Reading the Nye tensor also replaces the GND shown (C108_nye). The theorems say exactly when all is current. |
| C109 | Neighbouring grains on maps with boundary pixels | partial | DicNet_Props | On a DIC map the call always raises AttributeError: no code sets the attribute boundaries (C109_dic_refuted). With that attribute set from outside, the statement holds if every label is a grain's, -1 or -2 (C109_network_partial); pixels of no grain, labelled 0, are taken for the last grain of the list (C109_gap_refuted). |
| C11 | Datastore behaves as a key/attribute map | proved | Datastore_Props | Histories of add/assign on stores without derivatives refine a key/attribute map; reads of stored and absent keys; last write wins. |
| C110 | A plot shows what was asked for, where it was asked for | partial | PlotBuild_Props | Proved for new plots on axes given with their figure or on new axes, and for empty plots that are passed in: exactly the images asked for, in order, on these axes only, with the colour bar of the data. Refuted: axes given without their figure are drawn on before the call fails with AttributeError, and an interactive plot ignores them; a plot passed in that already has an image keeps describing its first image in the colour bar and draws boundaries and scale of the map it was made for; a second colour bar makes the first survive clear; the boundary map is white although black is meant (boundaryColour is not a parameter that is read). |
| C111 | The inspector's window shows the grain that is edited | partial | InspView_Props | Proved for every history in which the id asked for last is on the map: the window is about the edited grain, the lists are its lines and groups but for ratios, every line has an arrow and no other arrow is there but at most one drawn with the mouse; after a drawing anew each line has exactly one arrow and ratios are listed. Refuted: opening the inspector, and every event that draws, ends in a TypeError because add_slip_bands is called without its required data (the window stays usable); saving adds the arrows of all lines again; the ratio of a group is not listed when calculated; after a second press the line saved is not the arrow shown; after an id that the map does not have, the old grain stays shown, a second arrow joins the one drawn before, and clearing empties the picture but not the list. |
| C112 | The unit cell drawn is the crystal's cell in its orientation | partial | UnitCell_Props | Faces, similarity, closedness and symmetry are proved for both shipped cells. Refuted: the 30 degree turn of hexagonal cells is a flag that defaults to the OI axes whatever convention is configured (with the wrong one no corner is a lattice point), and the cell always has c/a = 1.633, not the phase's ratio. Axis limits, view direction and style are not modelled. |
| C113 | An inverse pole figure plot shows every orientation inside the frame it draws | partial | IpfPlot_Props | Proved for cubic crystals and for hexagonal ones with y along a2 (hkl/oi axes): corners, region, frame, points. Refuted: cube-axis directions fall outside the frame, tsl axes turn the frame by 30 degrees, unknown triangle names, fixed c/a, and the colour bar of a reused plot. Number types and rounding are not modelled. |
| C114 | The ratio window shows the fit and names the slip systems that match | partial | RdrPlot_Props | Proved: recording, table, points, labels (for grains whose Schmid factors were calculated for the phase's own systems, in any history without a reference set from outside) and the fit (histories without correction angle, samples on the map). Refuted: without Schmid factors the window fails although the ratio does not need them; factors calculated for other systems are shown beside the phase's own names, or fail with an IndexError; the n shown counts rows and not points; with the shipped bcc systems part of the table is below the window. |
| C115 | Detected slip bands depend on the pattern of strain in a grain and not on its unit, sign or the grain's shape | partial | SlipBand_Props | Proved for all maps and all transforms and peak finders that meet the conditions in SlipBand_Spec (rays are sums, proportional and not negative; peaks are relative to the range, interior, and none on a flat profile): only magnitudes count (C115_magnitude), any factor (C115_scale), whole degrees (C115_angles), flat profile for equal strain in any shape of grain that is wide enough (C115_uniform). Fails as stated: bands at 0 and 179 degrees are never found (C115_angles, C115_upright_refuted), a flat profile is an IndexError rather than no bands (C115_none_refuted), and unstrained pixels count as outside the grain (C115_unstrained_refuted). The transform and the peak finder are not modelled, real arithmetic is exact. |
| C116 | A map of Schmid factors is about the direction of load calculated last, for every grain | partial | SchmidMap_Props | Proved for every map and history: what is calculated (C116_calculated), what is shown if directions are given only with planes (C116_shown_partial, see C82 for the rest), and that after a failure nothing is shown although the grains before the failing one have new factors and those after it old ones (C116_failed). Ratios are right for grains with a reference (C116_ratios_partial, C116_then_ratios) but are an AttributeError for the first grain without one, unlike factors (C116_ratios_refuted). Pixels in no grain show 0.5, the greatest factor there can be. |
| C117 | Legends and numbers on maps identify what they label | partial | PhaseMap_Props | Proved for new plots; refuted for a plot that was given (legend of the first image), without phases (TypeError after drawing), for numbers of grains around others, and for the map of grains (one more than the id). matplotlib's norm and colour table are modelled as (v - min) / (max - min) over the table. |
| C118 | A DIC map made from a file has the strain of the deformation the file records | partial | DicLoad_Props | Proved from the rows of the file to the strains on the map for the grids each software writes; refuted for OpenPIV files with y increasing (C118_turned_refuted: derivatives along y negated) and for correlation values of a wrong size, which stay on the map although the call fails. Real arithmetic. |
| C119 | The selected, highlighted and shown grain is the one clicked last | partial | Session_Props | Proved for all histories by induction. Fails (refutations): the window shows another grain than the selected one after a click in a plot that displays nothing, and is left empty when the grain cannot be drawn; while drawing fails after the picture each click opens another window, without bound; with two plots for the origin the other keeps the old mark. Which pixel a click means is C45 (cut, not rounded). |
| C12 | Every key a Datastore lists can be read | partial | Datastore_Props | Proved for stored keys and keys handed on by first derivatives along a chain; refuted for a key only a later derivative contributes (KeyError). |
| C120 | Grains survive saving and loading a map | partial | EbsdLoadEx_Props, EbsdLoad_Props | Proved for maps whose primary phase is the first and for tolerances no misorientation of neighbours comes within 0.003 degrees of (C120_grains_partial); at every tolerance for the second and later round trips (C120_again). Refuted otherwise: angles are written with three decimals, so a boundary at 10.0004 degrees is lost at tolerance 10 (C120_tolerance_refuted); the primary phase is not written, so the symmetry used can change (C120_primary_refuted). Orientations of nans are not modelled. |
| C121 | A pixel of a DIC map is in the EBSD grain that the homologous points put there, however the map is cropped | partial | DicLink_Props | Proved when set_crop is told to update the homologous points. With the default update_homog_points=False the grains move against the data: C121_default_refuted. A pixel taken to less than half a pixel beyond the centres of the outer EBSD pixels is in no grain, although the nearest pixel is in one: C121_rim_refuted. skimage's estimate is a parameter with the properties 'exact' and 'shifts'; C121_least_squares shows that a least squares fit has both. |
| C122 | Grains of an EBSD map do not depend on how its orientations are described, and turn with the map | partial | EbsdTurn_Props | C122_described and C122_euler: equal outcome for equivalent orientations in other axes. C122_turned and C122_turned_boundaries: a map turned before its orientations are read. C122_read and C122_read_refuted: once orientations were read, rotate_data moves Euler angles, phases and band contrast but not the orientations, so grains of a map of one phase stay where they were. Maps of one row or column only are left out of the turned part, as are negative tolerances. |
| C123 | Quaternions are made of four numbers, and only +=, normalise and setting a component change one | partial | QuatObj_Props | Proved for all histories. Refuted: a set component can leave the northern hemisphere; normalise returns nothing though documented to return the quaternion; extract_quat_comps raises AttributeError for every non-empty list of sequences of four components, which its documentation allows. Infinite components and four-argument calls with arrays are not modelled. |
| C124 | What a DIC grain says about its crystal is what the EBSD grain it lies on says | partial | DicCrystal_Props | Proved while the EBSD grains are not found anew. After that the DIC grains keep the old objects, and no call on either side is seen by the other: C124_apart_refuted. EBSD grains found by calling find_grains directly leave the labels as they were, so a DIC grain may get the phase of a grain elsewhere: C124_labels_refuted. DIC grains found by calling find_grains on a new map are thrown away at the next access: C124_direct_refuted. The reference orientation is None until something calculates it (C124_ref). EBSD grains without a phase are not modelled. |
| C125 | A flood filled DIC grain is linked to the EBSD grain with most pixels in it | partial | DicFlood_Props | C125_any holds for every transform; C125_place for invertible affine maps after any updating crops; C125_outcome says exactly when it succeeds; C125_small_refuted: one DIC grain without EBSD pixel in it makes the whole call fail with TypeError. Partial also because a modal label that is not positive links from the end of the list (C73). |
| C126 | Rounding does not move grain boundaries | partial | Double_Props | Proved for double precision arithmetic (Flocq's IEEE 754 numbers), with np.arccos and the order of sums left open. Refuted: mis_ori stays at most one (C126_above_one_refuted), equal orientations are never cut apart (C126_uniform_refuted, tolerance 0). |
| C127 | Orientations from single precision Euler angles | partial | Single_Props | Refuted: neighbours with identical Euler angles need not be in one grain at very small tolerances (C127_uniform_refuted). Proved: accuracy of orientations and misorientations, and equality of boundaries and grains with exact arithmetic half a degree from the tolerance. |
| C128 | Oxford binary scans load as written | partial | Cpr_Props | Proved for headers whose numbers are plain decimals and whose record fields are all known (unknown ones: C59). Refuted: the documentation of Map asks for the path excluding the extension, but a name with a point loses what follows it (data/map_0.5um loads data/map_0.cpr or fails), and text files are not found without extension. |
| C129 | Strains of DIC maps in double precision are accurate, and only missing neighbours are missing in them | partial | Strain64_Props | Proved for displacements in double precision with gradients up to 2^200; without a bound on them the shear can be nan (C129_huge_refuted). Refuted: a pixel without displacement has no strain (C129_missing_refuted: inside the map it keeps one, its four neighbours lose theirs). |
| C13 | A generator's saved output is computed once and reused | proved | Datastore_Props | First read runs the generator once and saves every output not marked save=False; later reads reuse; None or unsaved outputs are recomputed. Generators are modelled as functions of the run counter that do not touch the stores. |
| C130 | KAM and grain misorientations survive rounding | partial | Kam64_Props | KAM, angles and axes in IEEE double precision (Flocq) against the real number model. Refuted: a uniform map can get KAM above zero everywhere (C130_uniform_refuted); the axis of a point close to its reference can be nan in every component although it is well defined, because the scalar part is not cut at one before arccos and the root (C130_axis_refuted). |
| C131 | Normalised quaternions and average orientations survive rounding | proved | Average64_Props | C131_normalise, C131_average, C131_near and C131_grod prove the statement with its conditions. They are needed. C131_normalise_refuted: beyond the range squares under- or overflow, so (2^-600,0,0,0) normalises to infinity and nan and (2^600,0,0,0) to zero. C131_average_refuted: two points that are the same half turn written with both signs have a nan average and all their angles and axes are nan. |
| C132 | Schmid factors survive rounding | proved | Schmid64_Props | Proved for double precision arithmetic (Flocq's IEEE 754 numbers), with the order of sums left open. Refuted: no factor exceeds one half exactly (C132_half_refuted). Slip vectors of hexagonal crystals are covered by C132_factor and C132_half once they are of length one and at a right angle up to 2^-41, which is proved for cubic Miller indices only. |
| C133 | Slip traces in double precision | partial | Trace64_Props | Hypotheses: length one up to 2^-41 (met by averages, C131, and by cubic slip planes, C132_cubic), scalar part not negative. The full claim (a number for every plane; no angle where there is no trace) is refuted for planes parallel to the screen; the trace angle is proved a number otherwise. |
| C134 | Theoretical displacement ratios in double precision | partial | Ratio64_Props | Error bound, one ratio per system, nan and the missing reference proved. That a horizontal direction is told apart is false of the code: by rounding a number may be given where no ratio exists (C134_horizontal_refuted). |
| C135 | Rotation matrices survive rounding | proved | RotMat64_Props | Proved for double precision arithmetic (Flocq's IEEE 754 numbers); x**2 is any function within one unit in the last place, even, exact at 0 and 1 (good_square, met by one multiplication). That entries do not exceed one is false (C135_above_refuted), as the statement says. |
| C136 | Dislocation densities in double precision | partial | Nye64_Props | For one pixel and the equivalent of its neighbour that was chosen; the choice by np.argmax is left open (every equivalent it may choose meets the hypothesis: C136_equivalents), and pixels of the last row and column (zero) are as in C53. Zero for a uniform map is refuted (C136_uniform_refuted), as the statement says. That only the gradient along y is used is C53. |
| C14 | Reading derived keys terminates and leaves no trace | partial | Datastore_Props | Termination for every finite graph, soundness, guard reset without self links, completeness for direct sources and, without filters, for all reachable stores. Refuted: guard leak on a self link, filtered chains miss keys, reading derived data may recurse for ever. |
| C15 | Datastore.update merges and honours priority | partial | Datastore_Props | Read law proved for both priorities; b unchanged refuted for priority self, and items stay shared under both. |
| C16 | Metadata queries fall back to the default | partial | Datastore_Props | Proved for stored items and items of a store with derivatives; an unknown item of a store without derivatives raises UnboundLocalError (refuted). |
| C17 | add_generator is all or nothing | partial | Datastore_Props | Refuted: the keys before the existing one stay added. Success case proved. |
| C18 | Unit quaternions give proper rotation matrices | proved | Quat_Props | Proved over the reals, plus: the matrix determines the unit quaternion up to sign. |
| C19 | Quaternion product composes rotations | proved | Quat_Props | Proved over the reals; group laws hold up to quaternion sign because the constructor moves results to the northern hemisphere. |
| C20 | transform_vector is the rotation by rot_matrix | partial | Quat_Props | Proved for northern objects (all objects not built with allow_southern). Refuted for southern objects: conjugate flips the sign, so the rotated vector comes out reversed. |
| C21 | Quaternion objects stay in the northern hemisphere and normalise to unit length | proved | Quat_Props | Proved over the reals. |
| C22 | Euler angles round trip | proved | Quat_Props | Proved over the reals in both directions (angles to quaternion and back for Phi strictly between 0 and pi). |
| C23 | Axis-angle construction is a unit rotation fixing its axis | proved | Quat_Props | Proved over the reals for non-zero axes. |
| C24 | The symmetry operator lists are groups | proved | Quat_Props | Proved by exact computation in Z[sqrt 2]/2 and Z[sqrt 3]/2, transferred to the reals. |
| C25 | Misorientation is a symmetry-invariant, symmetric dissimilarity | proved | Quat_Props | Proved over the reals, plus the triangle inequality of the misorientation angle and totality of the returned equivalent for the two crystal symmetries. |
| C26 | Vectorised quaternion routines agree with the scalar ones | proved | Quat_Props | Proved over the reals, including calcMisOri. |
| C27 | Average orientation is independent of the representation of its inputs | partial | Quat_Props | Unit result, copies, and exact characterisation as a running sum proved; representation independence only where the nearest equivalent is unique. Refuted in general: sign of a half-turn quaternion, and two close orientations with a far-away average. |
| C28 | IPF colouring depends only on the crystal direction | partial | Ipf_Props | In real arithmetic. Cubic: the unique image in the triangle is reported unless the direction is along a cube axis; then a direction at 90 degrees to the corner is reported (C28_cubic_refuted) and the colour is orange (1,2/3,0) instead of red (C28_cubic_colours_refuted). Hexagonal: exact if no orientation of the array has the direction along c; with one such orientation the azimuth range is widened by 1e-8 for all, so a direction depends on the other orientations (C28_hex_refuted), within 1e-8 (C28_hex_any). Colours: always in range with maximum 1. A wrong triangle name ends in UnboundLocalError (C28_errors). |
| C29 | Equal quaternions have equal hashes and equality is an equivalence | partial | QuatEq_Props | Symmetry, transitivity, hash consistency and lookup in sets proved for all floats incl. infinities and signed zeros; reflexivity holds exactly without nan components (refuted with nan); a quaternion changed in place after being put in a set is not found. |
| C30 | Misorientation axis is the rotation axis of the relative rotation | partial | Quat_Props | Proved for different orientations; for equal orientations the code divides 0 by 0 (nan) instead of returning zero. |
| C31 | Miller and Miller-Bravais indices round trip | partial | Crystal_Props | Planes: all integer and real indices. Directions: exact for integers within 127 and for reals not all near integers. Outside that the int8 cast wraps (C31_int8_wrap_refuted) and near-integers are rounded (C31_rounded_refuted). |
| C32 | Direct and reciprocal lattice matrices are dual | partial | Crystal_Props | Duality for every right-handed matrix and every admissible cell without entries below 1e-10. Lengths and angles: TSL always; HKL for cells with a=b and right angles; refuted for HKL with a<>b and for cells below the 1e-10 threshold. |
| C33 | Index reduction and sign normalisation are canonical | partial | Crystal_Props | Reduction proved when the reduced indices fit int8; wraps otherwise (refuted). Sign rule proved for all integers. |
| C34 | Shipped slip systems have the slip direction in the slip plane | partial | Crystal_Props | All shipped files but cubic_bcc.txt; cubic_bcc.txt refuted. |
| C35 | Grouping slip systems by plane is an order-preserving partition | proved | Crystal_Props | Grouping by plane in full; also grouping by family. |
| C36 | Slip system equality matches plane/direction equality up to sign | proved | Crystal_Props |  |
| C37 | generate_family returns each distinct system once and is closed under symmetry | partial | Crystal_Props | Cubic: indices within 127 (int8). Hexagonal: indices within 42, known conventions, self-membership for coprime indices; refuted for unreduced indices. |
| C38 | Schmid factors lie in [0, 1/2] | partial | Crystal_Props | Holds for systems with orthogonal unit vectors; the shipped BCC list violates the premise and the bound (refuted). |
| C39 | Phase lookups | proved | Crystal_Props |  |
| C40 | Grain data collected and scattered back reproduces the map | partial | Base_Props, GrainIds_Props | Scatter/collect and order independence for all disjoint grains; every list of ids, repeated or counted from the end, is characterised (C40_ids), and one id that is not on the map fails. Not kept in general: a non-integer background with integer data is truncated (C40_background_refuted). |
| C41 | Grain images are the grain in its bounding box | partial | Base_Props | Box, image, outline, coarse image proved for scalar float data. Refuted: default nan background of the outline, vector map data, integer data in the coarse image. |
| C42 | Proxigram is the distance to the nearest grain boundary | proved | Base_Props |  |
| C43 | Grain averages ignore other grains | partial | Base_Props, GrainIds_Props | Proved for -1 and every list of ids, repeated or counted from the end (C43_ids). A single integer id is a TypeError (C43_single_id_refuted). |
| C44 | Component selection picks the documented tensor component | partial | Base_Props | Refuted for names starting with ipf: IndexError / KeyError instead of ValueError. |
| C45 | Clicking a pixel selects the grain drawn there | partial | Base_Props | Clicks in the half of a drawn pixel above its integer coordinate select the right grain; the other half selects the previous pixel (C45_half_pixel_refuted). |
| C46 | Cropping a DIC map keeps data, coordinates and shape consistent | partial | Dic_Props | C46_shape holds for every history of set_crop. Cropped values (C46_crop_partial) need crops that fit: set_crop accepts negative and too large distances, and then shape and data disagree (C46_unchecked_refuted). |
| C47 | Re-cropping keeps homologous points on the same material point | proved | Dic_Props | Every history of calls with update_homog_points; calls without it leave the points alone. Homologous points with two coordinates. |
| C48 | Strain measures are exact for uniform deformations and frame indifferent | proved | Dic_Props | Over the reals. Any spacing but zero; maps of fewer than two rows or columns are a ValueError (C48_too_small). |
| C49 | Masking removes exactly the masked pixels and composes with cropping | partial | Dic_Props | Mask of the shape of the cropped map; the stored mask does not follow a later crop (C49_recrop_refuted). |
| C50 | Frame links give mutually inverse transforms | partial | Dic_Props | Estimation and inversion of transforms are parameters (skimage). Linking also in the other sense makes both lookups fail for good (C50_both_senses_refuted); the documented 'piecewiseAffine' is rejected on use (C50_piecewise_refuted); polynomial transforms are estimated in both senses, so are not inverse. |
| C51 | Updating one homologous point leaves the others alone | partial | Dic_Props | Wrong-length tuples are accepted, -1 with a new point erases all points, no argument erases the point (C51_accepted_refuted). |
| C52 | KAM averages the misorientation to the neighbouring pixels | partial | Ebsd_Props | The value is twice the arccosine of the mean of half-angle cosines (vertical pair and horizontal pair averaged with equal weight), not the mean angle: refuted by a 2x2 map; it is at least the mean and within the range of the neighbours. Symmetry is ignored. Maps with a side under 2 raise IndexError. |
| C53 | The Nye tensor uses both in-plane gradients | partial | Ebsd_Props | Refuted: line 513 assigns betaderx to betadery, so the gradient along x plays no part; a map varying along x only has zero density. The value actually computed is given exactly. The floor masks never apply. |
| C54 | rotate_data is an involution independent of cache state | partial | Ebsd_Props | Scalars are turned by 180 degrees and restored by a second turn; orientations are turned in place of pixels order when already computed. Refuted: result depends on whether orientations were generated before; without band_slope (all but Oxford files) a KeyError follows after half the data was turned. |
| C55 | Kuwahara filtering keeps edges and takes the most uniform block | partial | EbsdGrain_Props | Value, edges, locality, uniform regions and unit results are proved in full for tolerances in (0, 360]. Refuted: quaternion signs are ignored, so a pixel can get an orientation further from all its inputs than the tolerance; tolerance 0 gives nan everywhere; maps with a side under 5 end in UnboundLocalError after storing. |
| C56 | Linked grains map one to one between linked EBSD maps | partial | EbsdGrain_Props | Links never repeat, have one grain per map and need a full selection; reference orientations come from the last link. Refuted: two links may share a grain; clicking a linking plot raises AttributeError (plot.callingMap), so no selection can be made that way. |
| C57 | Text EBSD files written by DefDAP read back the same map | partial | Ctf_Props | Proved for maps whose phase names contain no tab, CR/LF or surrounding white space and with at least one phase: the file written by save loads back with the same shape, step rounded to 4 decimals, phases, band contrast and Euler angles rounded to 3 decimals in degrees (orientation within 0.0015 degree). Refuted in general: a map with no phases or a tab in a phase name cannot be read back, slip systems and space group specific data are lost, and a small step is written as 0. Band slope, MAD and EDX columns beyond those written are not modelled. |
| C58 | read_until_string returns exactly the lines before the marker | proved | Io_Props | Files are lists of lines without line feeds; process functions may keep state and fail. |
| C59 | Oxford binary records are decoded with all declared fields | partial | Io_Props | Proved for headers with distinct known field ids (optionally one unknown 4-byte field at the end), record bytes of the declared widths and the fields the loader needs. Refuted in general: an unknown field id removes all later fields from the layout, so the file is refused or read out of step. EDX maps of the result are not modelled; field bytes are not interpreted as numbers. |
| C60 | CPR header parsing keeps every key of every section | partial | Io_Props | Proved for headers whose entries have no '=' inside the value and no white space at the line ends. Refuted in general: an entry with '=' in its value is dropped. Reading always ends. |
| C61 | Grid loaders put each measurement at its own pixel | partial | IoDic_Props | PyVale: each pixel shows the last row of its cell or 0; own coordinates if all rows lie on a grid of the found step; complete rasters in row order load. Refuted: column order is refused, some row orders load with a wrong step, off-grid rows are shown elsewhere. OpenPIV: measurements keep their coordinates, rasters decreasing in y come out increasing; refuted for rasters already increasing, which come out decreasing, and for grids not starting half a step from the origin. Davis: order of the file is kept, rasters load. |
| C62 | Loader choice and data checks | partial | IoDic_Props | Loader choice is characterised completely. check_data is characterised exactly and agrees with the metadata for regular grids of at least two rows and columns; refuted: one row or column is refused, and some data that are no grid are accepted. |
| C63 | Lines are grouped completely and consistently | partial | Insp_Props | Numbering, completeness and plane lists hold in every history; the nearest-group rule and mean angles for lines grouped for the first time. Regrouping invariance and mean angles after later events hold if nothing was removed and lines form separate bundles; refuted in general (stale group ids are kept when regrouping), and for lines either side of 0/180 degrees. |
| C64 | Saved inspector lines load back | partial | InspFile_Props | Proved for every history of events with numpy 1, and with numpy 2 when no line joined a group and no ratio was calculated: the file loads without error into an inspector without lines, and restores ends, angle, group of every line and number, angle, planes, deviations and ratio of every group. False in general: with numpy 2 group numbers and ratios are written as np.int64(...) and are rejected on loading (C64_numpy2_refuted), a nan ratio is rejected (C64_nan_refuted), and loading appends to lines already present (C64_twice_refuted). |
| C65 | Drawn line angle is in [0,180] and independent of drawing direction | partial | Insp_Props | Angle and ends for every line; independent of direction unless parallel to the y axis, where it is 0 or 180 by direction (refuted); correction can take it out of [0,180] (refuted). |
| C66 | RDR is the slope of the fitted displacement differences | partial | Insp_Props | Least squares slope, exactness, definedness and sampling direction in every history without correction angle when samples are on the map; at the left and upper edges samples wrap round (refuted); with a correction angle the wrong row of the sampling table is used (refuted). Slip ratio of a system fully proved. |
| C67 | Pole projections map the upper hemisphere to a disc injectively | proved | Pole_Props | Over the reals; tan at exactly 180 degrees is undefined here (a large float in the code). |
| C68 | Plot helpers leave their arguments unchanged | partial | MapPlot_Props | Refuted as stated: each call inserts 'white' in front of the caller's list, so a second call with it draws different colours. Proved: exactly how every list changes over every session, lists not passed stay unchanged, and calls without a list repeat exactly. |
| C69 | Progress wrapper is transparent | proved | Progress_Props | Every generator that ends: same value or exception, each state resumed once, messages as specified; conversely a call that ends under the decorator ends by itself. Infinite floats are not modelled. |
| C70 | Slip traces are perpendicular to the projected plane normal | partial | EbsdGrain_Props | Perpendicularity, inclination and the nan case are proved for all unit normals; n and -n give the same line, except that a vertical trace is reported as 0 or pi depending on the sign (shown by witness). |
| C71 | Grain misorientation lists are measured from the grain average | partial | EbsdGrain_Props | Angle and axis proved for stored and average references. The axis is nan for points equivalent to the reference. Refuted: mis_ori_list and average_mis_ori hold half-angle cosines, 1 for a grain without misorientation. |
| C72 | Phase of a grain | proved | Flood_Props | Proved. |
| C73 | DIC flood-fill grains are linked to the EBSD grain they overlap most | partial | DicGrains_Props | Proved when the modal EBSD label is positive; refuted when background is modal (negative list index links an unrelated grain). |
| C74 | Boundary lines are the shared pixel edges | proved | Boundary_Props |  |
| C75 | Shipped slip system lists name each system once and have a colour for every plane | partial | Crystal_Props | FCC and hexagonal lists; refuted for cubic_bcc and cubic_bcc_110only. |
| C76 | A Datastore keeps one derivative per function | proved | Datastore_Props |  |
| C77 | Displaying neighbours highlights exactly the grains within two steps | proved | Base_Props |  |
| C78 | The centre of a grain lies in its bounding box | proved | Base_Props |  |
| C79 | Warped lines end between pixels, next to the transformed ends | proved | Dic_Props | The transform is any function of the plane. |
| C80 | Warped points agree with the warped, cropped image | partial | Dic_Props | C80_same_position: exact positions, every invertible affine transform. The slice agrees when the crop starts and ends inside (C80_slice_partial); otherwise numpy's negative index loses the points (C80_negative_crop_refuted). skeletonize and remove_small_objects are not modelled. |
| C81 | A saved homologous point is where it was picked | proved | Dic_Props | Real positions, positive binning. |
| C82 | Schmid factor maps show the greatest factor of the systems asked for | partial | EbsdGrain_Props | Proved except when directions are given without planes: they are then ignored (refuted). |
| C83 | A boundary segment reports the rotation between its grains | partial | EbsdGrain_Props | Cubic and hexagonal in full; for any other structure name a 180 degree misorientation ends in UnboundLocalError (refuted). |
| C84 | Euler colours follow the phase of each pixel | partial | EbsdGrain_Props | Colouring by phase proved for supported structures and indices in range. Refuted: the unsupported structure exception is built but not raised, so it is coloured with the previous phase's ranges or ends in UnboundLocalError; index -1 colours non-indexed pixels; values exceed 1. |
| C85 | The slip trace table describes each grain | partial | Insp_Props | Rows, grain ids, groups and Schmid factors proved; Euler angles are those of the selected grain, so wrong for others (refuted). |
| C86 | The grain shown is the grain edited | partial | Insp_Props | Proved as long as no request went beyond the map; refuted after one that did. |
| C87 | Pole figures use the projection, lines and markers asked for | partial | Pole_Props | Choice of projection, points of a line and two-colour markers proved. False: a symmetric copy of a line with one end turned to the upper half is another line (C87_symmetric_refuted; C87_symmetric_partial gives the exact condition); one marker colour always raises, and two colours always raise through plot_ipf (C87_points_refuted); a bad package default breaks pole figures with an explicit projection (C87_bad_default_refuted). |
| C88 | Highlights show the grains asked for in the colours asked for | partial | MapPlot_Props | Proved: which colour every pixel shows for any number of grains and colours, which is the colour asked for when there are no more colours than grains and some background is left (C88_colours_partial); layer bookkeeping over all call sequences; failed calls change nothing; the neighbour sets. Refuted: with more colours than grains the colours are spread (one grain and three colours shows the third); chosen grains covering the whole map leave the first one unseen; a grain with no second neighbours gets wrong neighbour colours. |
| C89 | Slip traces are drawn at their angles | partial | Pole_Props | Directions and colours proved for all lists. top_only holds for angles in [-90, 180) degrees and fails for angles in (-180, -90). |
| C90 | A histogram plot counts every value in range once | partial | Hist_Props | Proved for ranges low to high, bins >= 2 and positive ranges on logarithmic axes. Refuted: one bin fewer than asked for is drawn, the documented default range raises TypeError, the documented axes type 'None' is rejected. |
| C91 | EDAX text maps load as the map the file describes | partial | Ang_Props | Proved for numpy before 1.23: good files load as described. With numpy 1.23 or later no .ang file loads, because eight columns are asked for seven fields (C91_numpy_refuted); with older numpy the fit factor of the map is the detector signal column (C91_fit_refuted). Only the first word of a phase name is kept; phase number 255 becomes 0. Phase numbers are those of the file plus one. float32 rounding not modelled. |
| C92 | Maps given as dictionaries are taken over unchanged or rejected | partial | Ang_Props | Accepted dictionaries are characterised exactly; refuted: the shape of the band contrast is not checked (C92_contrast_refuted). |
| C93 | Picking homologous points adds exactly what was selected | partial | Homog_Props | Proved for every history of events; refuted: lower half of a pixel selects the neighbour, array points lose the selection. _partial: pixel under the pointer only in the upper half. |
| C94 | Every map is found in its own increment and experiment | partial | Homog_Props | Ownership, registration and iteration proved for every reachable registry; refuted: a map whose loading failed stays registered. |
| C95 | Equivalent indices are all and only the symmetric ones | partial | Eqv_Props | Refuted for indices beyond eight bits and for hexagonal three-index directions; exact characterisation proved within 127 (cubic) and 42 (hexagonal), where no eight-bit value overflows. |
| C96 | Indices can be read back from their text | partial | Eqv_Props | Refuted for two digits; proved for indices from -9 to 9. The texts themselves (digits, bars, brackets) are fixed only by the example C96_readable_partial_met, not by a theorem: a wrong closing bracket is not noticed by the theorems. |
| C97 | Labels on a pole plot name the direction they stand at | partial | Eqv_Props | Refuted for southern directions; proved for all others. |
| C98 | What a grain reports does not depend on the calls before | partial | GrainState_Props | proved for histories in which no reference is set from outside; refuted (stale or mixed values, foreign slip systems, failed calculations) otherwise |
| C99 | Linked misorientations are measured from the master's reference | partial | GrainState_Props | proved when the master's reference exists; refuted for missing references and GROD data |

## Findings: where the code does not keep the property

Each is a `_refuted` theorem or part of one; the theorem with the exact
condition under which the property does hold is beside it.

* Grain finding: one-pixel-wide maps read outside the arrays (C03); with no
  boundary left the rebuilt boundary image marks every pixel (C04, C05); no
  indexed pixel, or all grains too small, is an exception (C06); contacts on the
  rim of the map are not in the neighbour network (C09); a DIC grain whose modal
  EBSD label is background is linked to an unrelated grain (C73).
* Datastore: a listed key of a later derivative cannot be read (C12); a self
  link leaves the search guard set, filtered chains miss keys (C14); `update`
  changes or shares the other store (C15); `UnboundLocalError` for metadata of an
  unknown item (C16); `add_generator` is not all or nothing (C17).
* Quaternions: southern objects transform vectors to their opposites (C20);
  averages depend on the representation of the inputs (C27); a nan component
  makes an object unequal to itself, and objects changed in place are lost in
  sets (C29); the axis of a zero misorientation is nan (C30).
* IPF: a direction along a cube axis is reported outside the triangle and
  coloured orange; hexagonal results depend on the other pixels of the array;
  a bad triangle name is an `UnboundLocalError` (C28).
* Crystals: int8 wrap-around of indices, rounding of near-integers (C31, C33,
  C37); HKL convention with a different from b, cells below 1e-10 (C32);
  `cubic_bcc.txt` has non-orthogonal and repeated systems and too few colours, so
  Schmid factors exceed 1/2 (C34, C38, C75); unreduced hexagonal families (C37);
  directions without planes are ignored by the Schmid map (C82).
* Maps and grains: truncated background, nan outline, vector data, integer coarse
  data (C40, C41); a single grain id is a `TypeError` (C43); `ipf` names (C44);
  clicks select the wrong pixel half of the time (C45).
* DIC: crops are not checked (C46); the mask does not follow a later crop (C49);
  linking frames in both senses breaks both, `piecewiseAffine` is rejected (C50);
  malformed homologous point updates are accepted (C51); negative warp crops lose
  points (C80); re-linking shows the first map's boundaries in the second's frame, grains are not
  updated after a new crop or link, refused correlation values and refused crops are kept (C105).
* EBSD: KAM is not the mean angle (C52); the Nye tensor ignores the x gradient
  (C53); `rotate_data` depends on history and needs `band_slope` (C54); the
  Kuwahara filter ignores quaternion signs, tolerance 0 and small maps fail (C55);
  linked grains may be shared and clicking fails (C56); a vertical slip trace has
  two angles (C70); misorientation lists hold cosines (C71); boundary
  misorientation of other structures fails (C83); unsupported structures are
  coloured or fail, values exceed 1 (C84).
* Files: ctf files without phases or with tabs in names cannot be read, small
  steps become 0 (C57); an unknown CRC field drops the later ones (C59); `=` in CPR
  values drops the entry (C60); PyVale and OpenPIV grids in other orders or with
  other origins are misplaced (C61); single rows or columns are refused, some
  non-grids accepted (C62); EDAX files do not load with current numpy, and with older
  numpy the fit factor is another column (C91); the shape of the band contrast is not
  checked (C92).
* Experiments: a click in the lower half of a pixel selects its neighbour, points set
  as an array lose the selection (C93); a map that failed to load stays registered (C94).
* Indices: equivalents beyond eight bits wrap, hexagonal three-index directions raise
  (C95); two-digit indices share a text (C96); the label at a southern direction names
  the opposite one (C97).
* Grains: values stored under an old reference stay when the reference is set from outside
  and components can mix two references, foreign slip systems are reported as the phase's
  own, failed trace calculations give an empty list later (C98); a master grain without a
  reference erases the linked grain's, GROD data stay stale (C99).
* Maps: a misorientation component that does not exist is shown as the angle (C100);
  integer backgrounds cut colours to integers, phase -1 colours pixels not indexed (C101);
  a single grain number is refused, grains of other phases are placed with the primary
  phase's symmetry (C102); components share labels (C103); pictures of a grain's own
  point list mix points and coordinates (C104).
* DIC neighbour networks cannot be built, and label 0 stands for the last grain (C109).
* Labels on maps: `plot_phase_map` with a plot that already has an image shows a legend in the colours of that image; with no phases it fails with TypeError after drawing; `add_grain_numbers` writes at the centre of mass, which may be on another grain; `plot_grain_map` shows labels, one more than the ids written by `add_grain_numbers` (C117).
* DIC maps from files: OpenPIV grids with y increasing are turned over, so that every derivative along y has the wrong sign; `load_corr_val_data` assigns before it checks the size (C118).
* Clicking on maps: a grain that cannot be drawn empties the window of the grain shown before; if its slip traces or bands fail after the picture was drawn, each further click opens one more window (the window is only kept when drawing succeeds); with two plots open for the origin only the one clicked on moves its mark (C119).
* Saving and loading a map (C120): angles are written with three decimals of a degree, so a boundary whose misorientation is within 0.003 degrees of the tolerance can appear or vanish; the primary phase is not written, so boundaries of the loaded map use the symmetry of the first phase.
* `set_crop` leaves homologous points alone unless told otherwise, so after cropping a linked DIC map the
  grains found by 'warp' are shifted against the data by the crop (C121_default_refuted).
* Grains from a linked EBSD map: the outer half pixel of the EBSD map is lost, since labels are sampled only between the centres of the outer pixels (C121_rim_refuted).
* Turning an EBSD map after its orientations were read moves its phases, Euler angles and band contrast, not its orientations: in a map of one phase the grains found afterwards are where they were (C122_read, C122_read_refuted).
* `Quat.normalise` returns nothing and `Quat.extract_quat_comps` raises AttributeError for lists of component sequences, against their documentation (C123_normalise_refuted, C123_extract_refuted).
* DIC grains keep the EBSD grains they were linked to when the EBSD grains are found anew, and calling `find_grains` instead of generating the data leaves labels and grains at odds, or is undone at the next access (C124).
* Flood filled DIC grains: one grain that covers no EBSD pixel centre makes `find_grains` fail as a whole with TypeError, because the mode of nothing is nan (C125_small_refuted).
* `Quat.mis_ori` does not clip its result, as boundary detection does: for the normalised (1, 3, 1, 9) and itself it is above one, and `2*np.arccos(output)` is nan (C126). With tolerance 0 a map of one orientation, the normalised (1, 4, 1, 6), is cut at every pixel.
* Orientations computed in 32 bits are not unit: identical Euler angles (pi/2, 0, 0) in every pixel give misorientations of 0.03 degrees between neighbours, so a uniform map is cut at every pixel at tolerances of 1/50 degree and below (C127_uniform_refuted). Misorientations may be off by up to 2/5 degree by the bound proved.
* Paths: `Map` documents its path as excluding the extension, but the loader of binary scans replaces what follows the last point of the name, so `map_0.5um` loads `map_0.cpr`, and the loaders of text files do not add an extension (C128_point_refuted, C128_text_refuted). Text files that do not tell their step size load with a step of zero (C57_no_step, C91_no_step).
* A DIC pixel without displacement (nan) inside the map keeps a strain, because central differences skip
  it; its four neighbours lose theirs instead (C129_missing, C129_missing_refuted).
* Misorientation axes near the reference (C130): `calc_grod` and `build_mis_ori_list` do not
  cut the scalar part at one before `np.arccos` and `np.sqrt(1 - t**2)`, so points of a grain
  within about 1e-8 rad of the reference get nan in all three components.
* `Quat.calc_average_ori` divides by the norm of the sum unconditionally: two points holding the same half turn
  with opposite signs give a nan average, after which every misorientation of the grain is nan (C131_average_refuted).
  `Quat.normalise` squares first, so tiny or huge coefficients give infinity, nan or zero (C131_normalise_refuted).
* Schmid factors above one half: with the load (1, 1, 0)/sqrt 2 as numpy computes it, plane (100) and direction [010]
  the factor is 0.5000000000000001 (C132_half_refuted).
* In double precision the inclination of a plane parallel to the screen may be nan: for the
  orientation (1, 0, 0, 5) / sqrt 26 the product of the normals is 1.0000000000000002
  (C133_inclination_refuted); and a trace angle may be given although there is no trace
  (C133_parallel_refuted).  The trace angle itself is never nan by rounding (C133_trace).
* A slip direction that is horizontal in the sample has no theoretical displacement ratio, but
  by rounding `calc_rdr` may give a large number for it (here -1.8e16) rather than an infinity or
  nan (C134_horizontal_refuted).
* By rounding an entry of a rotation matrix may exceed one (C135_above_refuted): a rotation
  about the vertical makes the vertical longer by 2^-52.
* A uniform map has no dislocations, but by rounding `calc_nye` gives densities above zero for it
  (C136_uniform_refuted).  They are small: at most 2^-36 of 10^6 over step and Burgers vector
  (C136_uniform_gnd).
* Factors and ratios of a whole map: `calc_rdr` of a map whose grains have no reference orientation yet is an `AttributeError`, while the Schmid factors take the average by themselves. The map of Schmid factors shows pixels in no grain with 0.5, the colour of the most favourable grain.
* Slip bands: a band at exactly 0 or 179 degrees is never found, since the peak finder wants a lower value on each side and the profile is not continued past its ends. A grain with equal strain everywhere is an `IndexError` (the peak finder returns an empty array of floats). Pixels of no strain at all count as outside the grain.
* Ratio window: an exception when no Schmid factors were calculated (after the ratio is recorded); factors of other slip systems are shown beside the wrong names; n is the number of rows, not of points; the table for the shipped bcc systems runs out of the window.
* Inverse pole figure plots: a direction along a cube axis is drawn at the rim of the disc, outside the frame; with `tsl` axes the hexagonal frame is 30 degrees away from the points; an unknown triangle convention draws the frame of `up` but no orientation; hexagonal lines and labels off the basal plane are drawn for c/a = 0.8165 whatever the material; a plot that is passed in keeps its own projection and its colour bar is that of the first points (C113).
* Unit cells: the turn of a hexagonal cell is not taken from the configured axis convention, so with `tsl` axes the default picture is off by 30 degrees; the phase's c/a ratio is never used (C112).
* Making plots: axes without their figure, plots passed in with images, second colour bars, the colour of
  the boundary map (C110).
* EBSD sessions: grains, boundaries, KAM and network stay those of the map before turning or
  filtering and of an older tolerance; direct calls split list from label image; failed
  rotations and filters leave changed data (C108).
* Inspector: opening it and every drawing end in a `TypeError`, arrows are drawn repeatedly, ratios are not
  listed, a second press changes what is saved but not what is shown (C111); stale group ids, the 0/180 wrap (C63); numpy 2 scalars and nan cannot
  be loaded, loading appends (C64); vertical lines, correction angles (C65, C66);
  Euler angles of the wrong grain (C85); a failed request changes what is edited
  (C86).
* Plotting: a drag from outside the plot starts where the last one did, profiles draw hidden
  values (C106); colour lists are changed (C68); symmetric lines, single colours, bad
  defaults (C87); spread colours, whole-map highlights, neighbours' colours (C88);
  `top_only` arrows pointing down (C89); one bin too few, default range fails (C90).

## Modelled and not modelled

Modelled, function by function (lines are cited in the models): the flood fills of
`_accelerated.py`; in `base.py` grain data, averages, outlines, coarse maps,
proxigram, component selection, clicking, per-grain plots, labels; all of `crystal.py` and the conversions,
matrices, reductions, equivalents and texts of `crystal_utils.py`; `ebsd.py` grain finding, boundaries,
neighbour network, KAM, Nye tensor, rotation, Kuwahara filter, Linker, grain
averages and misorientations, Schmid factors, slip traces, colours, misorientation maps, what grains keep, sessions of calls on maps, saving;
`experiment.py` links, transforms, homologous points and picking them, warped points and lines, the registry of maps;
`file_readers.py` Oxford text and binary, CPR, EDAX, dictionaries, PyVale, OpenPIV, Davis, data checks;
`file_writers.py`; `hrdic.py` crops, masks, strain, grain finding and linking;
`inspector.py` lines, grouping, ratios, files, tables; `plotting.py` making plots, layers,
highlights, grain edges, poles, their labels, projections, traces, histograms; `quat.py`;
`utils.py` Datastore, progress wrapper.

Not modelled: matplotlib's drawing and event loops, the axes, buttons and text boxes
of plots, unit cell drawings; skimage's estimation of transforms, image warping,
skeletonising and the Radon transform behind `calc_slip_bands` (they enter as
parameters or not at all); numba compilation; numerical accuracy; the file system
(files are their contents); MATLAB and image files; parallel or re-entrant use.

## Trusted base

* Coq 8.16.1's kernel (and `vm_compute`, which the kernel implements).
* The axioms `Print Assumptions` lists.  They are the standard library's only:
  `ClassicalDedekindReals.sig_forall_dec`, `ClassicalDedekindReals.sig_not_dec`
  and `FunctionalExtensionality.functional_extensionality_dep` for theorems over
  `R`, and `Classical_Prop.classic` for those that use trigonometric or
  square-root lemmas depending on it.  Theorems about integers, lists, text and
  stores are closed under the global context.
* C126 to C136 use Flocq's definition of single and double precision numbers and their operations.
  Flocq adds no axioms beyond those above.
* That the model reads the code correctly.

## Wrong programs

`seeded/LOG.jsonl` has one line per deliberate bug put in a copy of the model: the
definition, the edit, the claim it breaks, the theorems that failed and those that
were tightened because the bug first went unnoticed.
`first_failing` names the first proof in each file that no longer builds. `theorems_failed`
lists what follows it: theorems later in that file, or in files that import it, that were
no longer checked. Some of these might hold of the edited model with another proof. Edits
made by a script are marked "generated edit", and their claim was not worked out by hand. A
failing proof script alone does not show that the claim is false of the edited model.
