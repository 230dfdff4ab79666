{"id": "C01", "title": "EBSD grains are exactly the boundary-free connected regions", "statement": "After find_grains on a map with at least two rows and two columns, two pixels carry the same positive label in data.grains if and only if they can be joined by a path of 4-neighbour steps of which none crosses a marked grain boundary. A region that contains an indexed pixel is labelled positively if it has at least min_grain_size pixels and -2 otherwise; all pixels of other regions carry 0.", "quantifier": "every map width and height, every pair of x/y boundary images, every phase image, every min_grain_size, every pair of pixels", "why_tests_cant": "the region shapes, the visiting order of the explicit stack and the interaction of many seeds are unbounded; a fixed mock map samples one topology", "anchors": ["defdap/ebsd.py:Map.find_grains", "defdap/_accelerated.py:flood_fill"]}
{"id": "C02", "title": "EBSD grain list and label image describe the same partition", "statement": "After find_grains the k-th grain object holds exactly the pixels whose label is k (1-based), each once; grains are numbered in raster order of their first pixel; every grain has at least min_grain_size points; grain point sets are pairwise disjoint.", "quantifier": "every map, boundary image, phase image and min_grain_size", "why_tests_cant": "the list and the image are filled by different code paths; agreement is an invariant over all loop iterations", "anchors": ["defdap/ebsd.py:Map.find_grains", "defdap/_accelerated.py:flood_fill", "defdap/base.py:Grain"]}
{"id": "C03", "title": "Flood fill terminates and stays inside its arrays", "statement": "The compiled (bounds-unchecked) flood fill always terminates, never addresses a pixel or a boundary cell outside the arrays, never writes past the coordinate buffer it was given, and never relabels a pixel that already had a positive label.", "quantifier": "every width, height, boundary image, seed and prior labelling", "why_tests_cant": "numba code has no bounds check, so an out-of-range access is silent; only a proof covers all shapes, including one-pixel-wide maps", "anchors": ["defdap/_accelerated.py:flood_fill", "defdap/_accelerated.py:flood_fill_dic"]}
{"id": "C04", "title": "Raising the misorientation tolerance only removes boundaries", "statement": "For one orientation map, every boundary marked at tolerance t2 >= t1 is also marked at t1, phase boundaries are marked at every tolerance, no boundary is marked on the last column (x) or last row (y), and hence the regions found at t1 refine those found at t2.", "quantifier": "every map of unit quaternions, every pair of tolerances", "why_tests_cant": "a monotonicity law relates two runs over all tolerance pairs and all orientation maps", "anchors": ["defdap/ebsd.py:Map.find_boundaries"]}
{"id": "C05", "title": "A boundary set's image marks exactly its points", "statement": "For a BoundarySet built from boundary images, points_x / points_y list exactly the marked pixels, and image_x / image_y / image rebuilt from those points mark exactly those pixels.", "quantifier": "every pair of boundary images of every shape, including images with no marked pixel", "why_tests_cant": "the rebuild goes through fancy indexing with a data-dependent index tuple; the empty case takes another indexing path", "anchors": ["defdap/ebsd.py:BoundarySet", "defdap/hrdic.py:BoundarySet"]}
{"id": "C06", "title": "find_grains either returns a complete labelling or fails before mutating the map", "statement": "For every map, including maps without any indexed pixel and maps whose regions are all smaller than min_grain_size, find_grains returns a labelling.", "quantifier": "every map, every min_grain_size", "why_tests_cant": "degenerate shapes of the search loop are reached only by adversarial maps", "anchors": ["defdap/ebsd.py:Map.find_grains", "defdap/_accelerated.py:find_first"]}
{"id": "C07", "title": "DIC flood-fill grains partition the pixels", "statement": "After find_grains(algorithm='floodfill') on a DIC map every pixel labelled k > 0 is listed in the k-th grain; non-boundary pixels share a label exactly when joined by a path of non-boundary pixels; each boundary pixel taken by a grain is the right or lower neighbour of one of that grain's pixels.", "quantifier": "every boundary image, every map size, every min_grain_size", "why_tests_cant": "the absorbing of boundary pixels depends on the visiting order", "anchors": ["defdap/hrdic.py:Map.find_grains", "defdap/_accelerated.py:flood_fill_dic"]}
{"id": "C08", "title": "Warped DIC grain labels are renumbered 1..n without mixing grains", "statement": "With the warp algorithm, DIC labels are exactly 1..n plus non-positive values; two pixels share a DIC label iff they share the warped EBSD label; DIC label order follows EBSD label order; DIC grain i is linked to the EBSD grain whose label it replaced; non-positive pixels are unchanged.", "quantifier": "every warped EBSD label image", "why_tests_cant": "the set of surviving labels after warping is arbitrary, so gaps can occur anywhere", "anchors": ["defdap/hrdic.py:Map.find_grains"]}
{"id": "C09", "title": "The neighbour network has an edge exactly for grains that touch", "statement": "build_neighbour_network joins two different grains iff some interior pixel of one is 4-adjacent across a counted boundary to the other; never joins a grain to itself or to unlabelled pixels; each boundary segment's point pairs are 4-adjacent pixels, the first in grain1 and the second in grain2.", "quantifier": "every labelled grain map, every pair of grains", "why_tests_cant": "edges are discovered by a raster scan with four probes; completeness quantifies over all maps", "anchors": ["defdap/ebsd.py:Map.build_neighbour_network", "defdap/base.py:Map.build_neighbour_network", "defdap/ebsd.py:BoundarySegment"]}
{"id": "C10", "title": "Boundary segments hold each boundary point once, oriented from grain1 to grain2", "statement": "Any sequence of addBoundaryPoint calls leaves a segment with exactly the points added, in order, and point pairs oriented from grain1 to grain2; another kind is refused. In the neighbour network every boundary point off the rim with a grain on either side is in exactly one segment, exactly once. BoundarySet.from_boundary_segments has exactly the union of the segments' points.", "quantifier": "every sequence of addBoundaryPoint calls, every map and every iteration order of the point sets", "why_tests_cant": "an invariant over call histories", "anchors": ["defdap/ebsd.py:BoundarySegment.addBoundaryPoint", "defdap/ebsd.py:BoundarySet.from_boundary_segments"]}
{"id": "C11", "title": "Datastore behaves as a key/attribute map", "statement": "After any sequence of add / set / delete-free operations, reading key or (key, attribute) returns the value last written to that key or attribute and no write to one key changes another; adding an existing key raises and changes nothing; reading an absent key raises KeyError.", "quantifier": "every operation sequence, every key and attribute", "why_tests_cant": "refinement over arbitrary histories", "anchors": ["defdap/utils.py:Datastore"]}
{"id": "C12", "title": "Every key a Datastore lists can be read", "statement": "If k is in keys() (or `k in store`) then store[k] does not raise KeyError, including keys contributed by any number of derivatives.", "quantifier": "every store with any number of derivatives and any chain of sources", "why_tests_cant": "the defect needs two or more derivatives with particular key placement", "anchors": ["defdap/utils.py:Datastore.keys", "defdap/utils.py:Datastore.lookup_derivative_keys", "defdap/utils.py:Datastore._get_derived_item"]}
{"id": "C13", "title": "A generator's saved output is computed once and reused", "statement": "With save=True, the first read of a generated key runs its function, stores every declared output that is not None under its declared key, and all later reads return the stored value without running it again; with save=False nothing is stored; None outputs are recomputed on every read.", "quantifier": "every generator, key tuple, call history", "why_tests_cant": "caching is a property of histories", "anchors": ["defdap/utils.py:Datastore.add_generator", "defdap/utils.py:Datastore.generate", "defdap/utils.py:Datastore.__getitem__"]}
{"id": "C14", "title": "Reading derived keys terminates and leaves no trace", "statement": "keys() terminates for every graph of datastores linked by derivatives, including cycles and self links, returns every reachable key whose metadata matches, and leaves the recursion guard empty.", "quantifier": "every finite directed graph of datastores", "why_tests_cant": "cycles of arbitrary length; global (class-level) state survives between calls", "anchors": ["defdap/utils.py:Datastore.lookup_derivative_keys"]}
{"id": "C15", "title": "Datastore.update merges and honours priority", "statement": "a.update(b) afterwards reads b's value for keys of b and a's for the others, with priority='self' reading a's value for shared keys; b is not changed by the update.", "quantifier": "every pair of stores and both priorities", "why_tests_cant": "aliasing shows only when a particular order of later writes happens", "anchors": ["defdap/utils.py:Datastore.update"]}
{"id": "C16", "title": "Metadata queries fall back to the default", "statement": "get_metadata(key, attr, default) returns the stored attribute if there is one and the default otherwise, for stored, derived and unknown keys alike.", "quantifier": "every store, key, attribute and default", "why_tests_cant": "the derived/unknown branches are reached only for particular store shapes", "anchors": ["defdap/utils.py:Datastore.get_metadata"]}
{"id": "C17", "title": "add_generator is all or nothing", "statement": "If add_generator raises because one of its keys already exists, the store is unchanged.", "quantifier": "every store and key list", "why_tests_cant": "the failing key may be at any position", "anchors": ["defdap/utils.py:Datastore.add_generator"]}
{"id": "C18", "title": "Unit quaternions give proper rotation matrices", "statement": "rot_matrix of a unit quaternion has R R^T = I and det R = 1, q and -q give the same matrix, and the conjugate gives the transpose.", "quantifier": "every unit quaternion over the reals", "why_tests_cant": "a continuum of inputs", "anchors": ["defdap/quat.py:Quat.rot_matrix", "defdap/quat.py:Quat.conjugate"]}
{"id": "C19", "title": "Quaternion product composes rotations", "statement": "The product is associative with identity, multiplies norms, has conjugate as inverse for unit quaternions, and R(p*q) = R(p) R(q).", "quantifier": "every pair/triple of quaternions", "why_tests_cant": "a continuum of inputs and a hemisphere flip on every construction", "anchors": ["defdap/quat.py:Quat.__mul__", "defdap/quat.py:Quat.norm", "defdap/quat.py:Quat.conjugate"]}
{"id": "C20", "title": "transform_vector is the rotation by rot_matrix", "statement": "For every unit quaternion object, transform_vector(v) = rot_matrix . v; so it preserves dot products and cross products and is undone by the conjugate.", "quantifier": "every unit quaternion (both hemispheres, as allow_southern permits) and vector", "why_tests_cant": "a continuum of inputs; the failing half-space needs allow_southern", "anchors": ["defdap/quat.py:Quat.transform_vector"]}
{"id": "C21", "title": "Quaternion objects stay in the northern hemisphere and normalise to unit length", "statement": "Every Quat built without allow_southern has a non-negative first coefficient and represents the same rotation as its input; normalise makes any non-zero quaternion unit length without changing its direction.", "quantifier": "every 4-tuple of reals", "why_tests_cant": "a continuum of inputs", "anchors": ["defdap/quat.py:Quat.__init__", "defdap/quat.py:Quat.normalise"]}
{"id": "C22", "title": "Euler angles round trip", "statement": "from_euler_angles gives a unit quaternion with the Bunge rotation matrix; euler_angles applied to any unit quaternion returns angles in [0,2pi)x[0,pi]x[0,2pi) whose quaternion is the original one up to sign.", "quantifier": "every triple of angles and every unit quaternion, degenerate cases included", "why_tests_cant": "degenerate branches (chi = 0) and continuum of inputs", "anchors": ["defdap/quat.py:Quat.from_euler_angles", "defdap/quat.py:Quat.euler_angles", "defdap/quat.py:create_many_quats"]}
{"id": "C23", "title": "Axis-angle construction is a unit rotation fixing its axis", "statement": "from_axis_angle(axis, angle) with a non-zero axis is a unit quaternion whose rotation fixes the axis, and whose scalar part is |cos(angle/2)|.", "quantifier": "every non-zero axis and every angle", "why_tests_cant": "a continuum of inputs", "anchors": ["defdap/quat.py:Quat.from_axis_angle"]}
{"id": "C24", "title": "The symmetry operator lists are groups", "statement": "The cubic list has 24 and the hexagonal list 12 pairwise distinct unit rotations, starting with the identity, closed under product and inverse up to quaternion sign; an unknown structure name yields just the identity.", "quantifier": "all pairs of operators, exactly in the reals", "why_tests_cant": "floating-point tests cannot establish exact closure; sign errors in one entry would break invariance elsewhere", "anchors": ["defdap/quat.py:Quat.sym_eqv", "defdap/crystal.py:crystalStructures"]}
{"id": "C25", "title": "Misorientation is a symmetry-invariant, symmetric dissimilarity", "statement": "mis_ori(q, p) is the maximum over symmetry equivalents of |q . p|, lies in [0,1], is symmetric in its arguments, is 1 exactly for symmetry-equivalent unit orientations, and is unchanged when either argument is replaced by a symmetry equivalent or both are rotated by one common rotation.", "quantifier": "every pair of unit quaternions and both symmetry groups", "why_tests_cant": "group invariance over a continuum", "anchors": ["defdap/quat.py:Quat.mis_ori", "defdap/quat.py:Quat.calcMisOri"]}
{"id": "C26", "title": "Vectorised quaternion routines agree with the scalar ones", "statement": "create_many_quats, multiply_many_quats and calc_sym_eqvs give at position i the same quaternion as the scalar constructor/product on the i-th input, including the hemisphere flip.", "quantifier": "every list of orientations", "why_tests_cant": "list length and signs are unbounded", "anchors": ["defdap/quat.py:create_many_quats", "defdap/quat.py:multiply_many_quats", "defdap/quat.py:calc_sym_eqvs"]}
{"id": "C27", "title": "Average orientation is independent of the representation of its inputs", "statement": "calc_average_ori returns a unit quaternion, returns q for a list of copies of q, is unchanged when the (non-reference) inputs are replaced by symmetry equivalents or by the same rotation with opposite quaternion sign.", "quantifier": "every non-empty list of unit quaternions", "why_tests_cant": "sign ambiguity matters only on the equator of the quaternion sphere", "anchors": ["defdap/quat.py:calc_average_ori"]}
{"id": "C28", "title": "IPF colouring depends only on the crystal direction", "statement": "calc_fund_dirs maps a direction to polar angles inside the fundamental triangle of the symmetry; the IPF colour has components in [0,1] with maximum 1 and is the same for symmetry-equivalent orientations.", "quantifier": "every unit orientation and sample direction", "why_tests_cant": "continuum of inputs; the selection among symmetric images is data dependent", "anchors": ["defdap/quat.py:calc_fund_dirs", "defdap/quat.py:calc_ipf_colours"]}
{"id": "C29", "title": "Equal quaternions have equal hashes and equality is an equivalence", "statement": "Quat == is reflexive, symmetric, transitive, and equal quaternions hash equal.", "quantifier": "all quaternions", "why_tests_cant": "a relational law over all pairs", "anchors": ["defdap/quat.py:Quat.__eq__", "defdap/quat.py:Quat.__hash__"]}
{"id": "C30", "title": "Misorientation axis is the rotation axis of the relative rotation", "statement": "mis_ori_axis(q, p) is parallel to the axis of the relative rotation, with length equal to the rotation angle, and is zero for equal orientations.", "quantifier": "every pair of unit quaternions", "why_tests_cant": "continuum; singular at the identity", "anchors": ["defdap/quat.py:Quat.mis_ori_axis"]}
{"id": "C31", "title": "Miller and Miller-Bravais indices round trip", "statement": "convert_idc from Miller to Miller-Bravais and back returns the same direction / plane, and the other way round for indices with the redundant third index; converted indices satisfy the redundancy u+v+t=0 (h+k+i=0) and keep the scalar product of plane and direction.", "quantifier": "every integer or real index triple/quadruple", "why_tests_cant": "infinite index domain", "anchors": ["defdap/crystal_utils.py:convert_idc"]}
{"id": "C32", "title": "Direct and reciprocal lattice matrices are dual", "statement": "For every unit cell, create_q_matrix(create_l_matrix(cell)) is the inverse transpose: Q^T L = I; lattice vector lengths and angles in L are those given.", "quantifier": "every admissible set of lattice parameters", "why_tests_cant": "continuum of cells", "anchors": ["defdap/crystal_utils.py:create_l_matrix", "defdap/crystal_utils.py:create_q_matrix"]}
{"id": "C33", "title": "Index reduction and sign normalisation are canonical", "statement": "reduce_idc returns integer indices parallel to the input with gcd 1; pos_idc returns the same vector up to sign with its first non-zero entry positive; both are idempotent; two vectors get the same result iff they are (anti)parallel.", "quantifier": "every non-zero index vector", "why_tests_cant": "infinite index domain", "anchors": ["defdap/crystal_utils.py:reduce_idc", "defdap/crystal_utils.py:pos_idc"]}
{"id": "C34", "title": "Shipped slip systems have the slip direction in the slip plane", "statement": "For every slip system of every shipped slip system file, the plane normal is orthogonal to the slip direction.", "quantifier": "all rows of all shipped files", "why_tests_cant": "tests check two rows; the data files have 100+ rows with hand-typed signs", "anchors": ["defdap/slip_systems", "defdap/crystal.py:SlipSystem.load"]}
{"id": "C35", "title": "Grouping slip systems by plane is an order-preserving partition", "statement": "SlipSystem.group(list, 'plane') returns groups whose concatenation is a permutation of the input preserving input order inside groups, each group sharing one plane up to sign, different groups having different planes.", "quantifier": "every non-empty list of slip systems", "why_tests_cant": "unbounded lists", "anchors": ["defdap/crystal.py:SlipSystem.group"]}
{"id": "C36", "title": "Slip system equality matches plane/direction equality up to sign", "statement": "Two slip systems are equal iff their planes agree up to sign and their directions agree up to sign; equality is an equivalence relation and equal systems have equal hashes.", "quantifier": "all pairs/triples of slip systems", "why_tests_cant": "relational law", "anchors": ["defdap/crystal.py:SlipSystem.__eq__", "defdap/crystal.py:SlipSystem.__hash__"]}
{"id": "C37", "title": "generate_family returns each distinct system once and is closed under symmetry", "statement": "generate_family returns systems that are pairwise different, contains the system itself, and applying any symmetry operator of the crystal to any member yields a member.", "quantifier": "every slip system of a cubic or hexagonal crystal", "why_tests_cant": "infinitely many index choices", "anchors": ["defdap/crystal.py:SlipSystem.generate_family"]}
{"id": "C38", "title": "Schmid factors lie in [0, 1/2]", "statement": "For a unit load direction and slip systems with orthogonal unit plane normal and direction, every Schmid factor is between 0 and 0.5, and is unchanged when load, plane or direction changes sign.", "quantifier": "every orientation, load direction and slip system", "why_tests_cant": "continuum of inputs", "anchors": ["defdap/ebsd.py:Grain.calc_average_schmid_factors", "defdap/quat.py:Quat.transform_vector"]}
{"id": "C39", "title": "Phase lookups", "statement": "A phase with Laue group 9/11 is hexagonal/cubic, any other group is rejected at construction; the slip system file follows from structure and space group only.", "quantifier": "all integers", "why_tests_cant": "decision table over all integers", "anchors": ["defdap/crystal.py:Phase"]}
{"id": "C40", "title": "Grain data collected and scattered back reproduces the map", "statement": "Writing each grain's data (grain_data_to_map_data) then collecting it again by grain returns the same lists; pixels outside the selected grains hold the background value; the order of grains does not matter when they are disjoint.", "quantifier": "every grain list with disjoint points, every data list, every background", "why_tests_cant": "unbounded shapes", "anchors": ["defdap/base.py:Map.grain_data_to_map_data", "defdap/base.py:Grain.grain_data"]}
{"id": "C41", "title": "Grain images are the grain in its bounding box", "statement": "extreme_coords is the smallest box containing the grain; grain_map_data puts each point's value at its offset in that box and bg elsewhere; grain_outline marks exactly the grain's pixels with fg; grain_map_data_coarse averages each block over grain pixels.", "quantifier": "every non-empty point list and data", "why_tests_cant": "unbounded shapes", "anchors": ["defdap/base.py:Grain.extreme_coords", "defdap/base.py:Grain.grain_map_data", "defdap/base.py:Grain.grain_outline", "defdap/base.py:Grain.grain_map_data_coarse"]}
{"id": "C42", "title": "Proxigram is the distance to the nearest grain boundary", "statement": "Each pixel of the proxigram holds the least Euclidean distance to the (shifted) grain boundary points, capped at the initial value, independent of how boundary points are batched.", "quantifier": "every boundary image and every batch count >= 1", "why_tests_cant": "batch splitting interacts with a running minimum", "anchors": ["defdap/base.py:Map.calc_proxigram"]}
{"id": "C43", "title": "Grain averages ignore other grains", "statement": "calc_grain_average returns for each requested grain the mean over exactly that grain's pixels; grain ids of -1 mean all grains; a value changed outside a grain does not change its average.", "quantifier": "every map, grain list and id list", "why_tests_cant": "unbounded", "anchors": ["defdap/base.py:Map.calc_grain_average"]}
{"id": "C44", "title": "Component selection picks the documented tensor component", "statement": "Selecting a component returns the (i,j,..) component of the tensor at every pixel for a tuple, the Euclidean (Frobenius) norm for 'norm', the data itself when no component is asked for scalar data, and rejects every other argument with a ValueError.", "quantifier": "every component argument and data rank", "why_tests_cant": "decision table", "anchors": ["defdap/base.py:Map._extract_component", "defdap/base.py:Map._validate_component"]}
{"id": "C45", "title": "Clicking a pixel selects the grain drawn there", "statement": "click_grain_id selects grain k iff the clicked pixel has label k+1, for in-range clicks, and does not select background.", "quantifier": "every click position and label image", "why_tests_cant": "rounding and background labels", "anchors": ["defdap/base.py:Map.click_grain_id"]}
{"id": "C46", "title": "Cropping a DIC map keeps data, coordinates and shape consistent", "statement": "After any sequence of set_crop calls the displayed shape equals the raw shape minus the crops, crop(data) returns the raw values at the shifted position, binning multiplies pattern crops.", "quantifier": "every crop sequence and map", "why_tests_cant": "history property", "anchors": ["defdap/hrdic.py:Map.set_crop", "defdap/hrdic.py:Map.crop"]}
{"id": "C47", "title": "Re-cropping keeps homologous points on the same material point", "statement": "After set_crop(update_homog_points=True) every homologous point plus the crop offset is unchanged.", "quantifier": "every crop history", "why_tests_cant": "history invariant", "anchors": ["defdap/hrdic.py:Map.set_crop", "defdap/experiment.py:Frame.update_homog_points"]}
{"id": "C48", "title": "Strain measures are exact for uniform deformations and frame indifferent", "statement": "For displacement fields linear in position the deformation gradient is exactly that gradient plus identity at every pixel; adding a constant displacement changes nothing; a rigid rotation gives zero Green strain; Green strain is symmetric; max shear is non-negative and rotation invariant.", "quantifier": "every map size >= 2x2, every linear displacement field", "why_tests_cant": "continuum and unbounded sizes", "anchors": ["defdap/hrdic.py:Map.__init__"]}
{"id": "C49", "title": "Masking removes exactly the masked pixels and composes with cropping", "statement": "A mask hides exactly the pixels set in the mask and leaves others unchanged; statistics computed after masking do not depend on values under the mask.", "quantifier": "every mask and data", "why_tests_cant": "unbounded", "anchors": ["defdap/hrdic.py:Map.calc_mask", "defdap/hrdic.py:Map.mask"]}
{"id": "C50", "title": "Frame links give mutually inverse transforms", "statement": "After link_frames(f1, f2, properties) the transform from f1 to f2 is the one estimated from the homologous points with the last properties given, and the one from f2 to f1 is its inverse; linking one pair leaves the transforms of all other pairs unchanged; asking for a pair linked in neither sense is a ValueError; a second link of the same pair, in the same or the other sense, leaves the pair usable; every documented transform type is accepted.", "quantifier": "every history of link operations, every pair of frames, every transform type", "why_tests_cant": "history invariant", "anchors": ["defdap/experiment.py:Experiment.link_frames", "defdap/experiment.py:Experiment.get_frame_transform"]}
{"id": "C51", "title": "Updating one homologous point leaves the others alone", "statement": "update_homog_points with an index changes only that point; with delta shifts only that point (or all for -1); bad arguments are rejected.", "quantifier": "every point list, index and argument combination", "why_tests_cant": "index -1 and argument combinations", "anchors": ["defdap/experiment.py:Frame.update_homog_points"]}
{"id": "C52", "title": "KAM averages the misorientation to the neighbouring pixels", "statement": "calc_kam gives at each pixel the mean misorientation to its existing vertical and horizontal neighbours: non-negative, between the smallest and largest of them, zero exactly where all of them have the same orientation, dependent only on the pixel and its neighbours and not on the frame of reference.", "quantifier": "every orientation map", "why_tests_cant": "holds for every map and pixel, edges included", "anchors": ["defdap/ebsd.py:Map.calc_kam"]}
{"id": "C53", "title": "The Nye tensor uses both in-plane gradients", "statement": "The dislocation density estimate depends on the orientation gradient along x as well as along y, and is zero for a uniform map.", "quantifier": "every orientation map", "why_tests_cant": "array aliasing is invisible to shape and type checks", "anchors": ["defdap/ebsd.py:Map.calc_nye"]}
{"id": "C54", "title": "rotate_data is an involution independent of cache state", "statement": "Rotating an EBSD map twice by 180 degrees restores the scanned data, and the result does not depend on whether orientations were computed before.", "quantifier": "every map and call history", "why_tests_cant": "history dependence via the datastore cache", "anchors": ["defdap/ebsd.py:Map.rotate_data"]}
{"id": "C55", "title": "Kuwahara filtering keeps edges and takes the most uniform block", "statement": "filter_data replaces each pixel at least two from the edge by the normalised sum of those orientations of the most uniform of the eight 3x3 blocks around it that lie within the tolerance; other pixels keep their orientation, results are unit quaternions, a uniform region is not changed, and only the 5x5 surroundings matter. The new orientation lies among the orientations it was made of.", "quantifier": "every orientation map and tolerance", "why_tests_cant": "neighbourhoods and ties on unbounded maps; sign of quaternions", "anchors": ["defdap/ebsd.py:Map.filter_data"]}
{"id": "C56", "title": "Linked grains map one to one between linked EBSD maps", "statement": "Linker.make_link stores the selected grains of all maps as one link, never twice, needs a selection in every map and leaves the links unchanged otherwise; each link has one grain per map and links are one to one. Clicking in the linking plots selects a grain. set_ref_ori_from_master gives each linked grain the reference orientation of its partner in the first map and changes no other.", "quantifier": "every history of selections, clicks, link and reset commands", "why_tests_cant": "history invariant", "anchors": ["defdap/ebsd.py:Linker"]}
{"id": "C57", "title": "Text EBSD files written by DefDAP read back the same map", "statement": "Loading a file written by the Oxford text writer returns the same shape, step size, per-pixel phase, Euler angles and band contrast and the same phases.", "quantifier": "every map", "why_tests_cant": "parsing/formatting round trip over all maps", "anchors": ["defdap/file_writers.py:OxfordTextWriter", "defdap/file_readers.py:OxfordTextLoader"]}
{"id": "C58", "title": "read_until_string returns exactly the lines before the marker", "statement": "read_until_string processes, in order, exactly the non-blank, non-comment lines before the first line that starts with the marker (or, with exact on, equals it), ignoring white space at both ends, and leaves the file just before that line; without a marker line the whole file is read.", "quantifier": "every file content, marker and option", "why_tests_cant": "unbounded inputs", "anchors": ["defdap/file_readers.py:read_until_string"]}
{"id": "C59", "title": "Oxford binary records are decoded with all declared fields", "statement": "The record layout built from a .cpr header has every declared field at its declared position; an unknown field does not affect the others.", "quantifier": "every list of field ids", "why_tests_cant": "any position of the unknown id", "anchors": ["defdap/file_readers.py:OxfordBinaryLoader"]}
{"id": "C60", "title": "CPR header parsing keeps every key of every section", "statement": "load_oxford_cpr returns for every section every key with its full value text.", "quantifier": "every header text", "why_tests_cant": "unbounded inputs", "anchors": ["defdap/file_readers.py:OxfordBinaryLoader.load_oxford_cpr"]}
{"id": "C61", "title": "Grid loaders put each measurement at its own pixel", "statement": "PyVale and openPIV loaders place each (x,y,u,v) row at the pixel of its coordinates independent of row order, with y increasing downward.", "quantifier": "every point list", "why_tests_cant": "row order and missing points", "anchors": ["defdap/file_readers.py:PyValeLoader", "defdap/file_readers.py:OpenPivTextLoader"]}
{"id": "C62", "title": "Loader choice and data checks", "statement": "get_loader accepts exactly the documented data type names and file suffixes; check_data accepts exactly data that agrees with the metadata.", "quantifier": "every type name and metadata", "why_tests_cant": "decision table over all strings", "anchors": ["defdap/file_readers.py:EBSDDataLoader", "defdap/file_readers.py:DICDataLoader"]}
{"id": "C63", "title": "Lines are grouped completely and consistently", "statement": "After any events in the inspector, on every grain each drawn line is in exactly one group, groups are numbered 0..n-1, none is empty, and the listed slip planes are exactly those with a trace within 5 degrees of the group angle. Each line joins the nearest group within 10 degrees of it or starts a new one, a group's angle is the mean of its lines, and grouping again without changes gives the same groups.", "quantifier": "every history of drawing, removing, clearing, navigating and grouping; any number of grains and lines", "why_tests_cant": "history dependence", "anchors": [""]}
{"id": "C64", "title": "Saved inspector lines load back", "statement": "load_file after save_file restores every line's coordinates, angle and group and each group's data.", "quantifier": "every set of lines and groups", "why_tests_cant": "text round trip over all states", "anchors": ["defdap/inspector.py:GrainInspector.save_file", "defdap/inspector.py:GrainInspector.load_file"]}
{"id": "C65", "title": "Drawn line angle is in [0,180] and independent of drawing direction", "statement": "Saving a drawn line records its ends and its angle from the y axis, less the correction angle, to two decimals; the angle is in [0,180] and is the same when the ends are swapped.", "quantifier": "every pair of distinct points, correction angle and earlier history", "why_tests_cant": "quadrant handling", "anchors": [""]}
{"id": "C66", "title": "RDR is the slope of the fitted displacement differences", "statement": "The ratio recorded by calc_rdr for a group is the least squares slope of the displacements u against v, each as deviations from the mean of its row of samples across the line; it is exact when u is linear in v with one slope, and the rows lie within 22.5 degrees of the perpendicular of the lines. The ratio expected of a slip system is minus the x over the y component of the slip direction in the sample frame.", "quantifier": "every history, group, displacement field and sampling length; every orientation and slip direction", "why_tests_cant": "continuum", "anchors": [""]}
{"id": "C67", "title": "Pole projections map the upper hemisphere to a disc injectively", "statement": "Stereographic projection maps polar angles with alpha <= 90 deg into the unit disc, the equal-area one into radius sqrt 2, with radius increasing in alpha and azimuth beta - 90 deg; equal-area radius squared is proportional to spherical cap area.", "quantifier": "all polar angles", "why_tests_cant": "continuum", "anchors": ["defdap/plotting.py:PolePlot.stereo_project", "defdap/plotting.py:PolePlot.lambert_project", "defdap/quat.py:Quat.polar_angles"]}
{"id": "C68", "title": "Plot helpers leave their arguments unchanged", "statement": "add_grain_highlights does not modify the caller's colour list, so repeated calls with one list draw the same colours.", "quantifier": "every colour list and call sequence", "why_tests_cant": "only visible across calls", "anchors": ["defdap/plotting.py:MapPlot.add_grain_highlights"]}
{"id": "C69", "title": "Progress wrapper is transparent", "statement": "A function decorated with report_progress returns what its generator returns, runs it to completion exactly once and propagates its exceptions; messages are printed for progress advances above one percent only.", "quantifier": "every generator", "why_tests_cant": "all yield sequences", "anchors": ["defdap/utils.py:report_progress"]}
{"id": "C70", "title": "Slip traces are perpendicular to the projected plane normal", "statement": "calc_slip_traces returns for each plane an angle whose direction is perpendicular (in the map plane) to the rotated plane normal.", "quantifier": "every orientation and slip plane", "why_tests_cant": "continuum; sign and quadrant conventions", "anchors": ["defdap/ebsd.py:Grain.calc_slip_traces"]}
{"id": "C71", "title": "Grain misorientation lists are measured from the grain average", "statement": "build_mis_ori_list gives for each point the misorientation to the average orientation, calc_grod its angle and axis; for a grain of identical orientations all angles are 0.", "quantifier": "every grain", "why_tests_cant": "continuum", "anchors": ["defdap/ebsd.py:Grain.build_mis_ori_list", "defdap/ebsd.py:Grain.calc_grod"]}
{"id": "C72", "title": "Phase of a grain", "statement": "After find_grains a grain has phase v exactly when v is a valid phase and every pixel of the grain has phase v in the phase map; a grain whose pixels disagree, or that contains not-indexed pixels, has no phase.", "quantifier": "every map on which find_grains succeeds, every grain", "why_tests_cant": "grains of arbitrary shape and phase mix", "anchors": ["defdap/ebsd.py:Map.find_grains"]}
{"id": "C73", "title": "DIC flood-fill grains are linked to the EBSD grain they overlap most", "statement": "After find_grains(algorithm='floodfill') each DIC grain is linked to the EBSD grain whose label is the most frequent (lowest on ties) among the EBSD labels under the warped DIC grain.", "quantifier": "every list of EBSD labels under a DIC grain, every number of EBSD grains", "why_tests_cant": "all label mixes, including background labels being the most frequent", "anchors": ["defdap/hrdic.py:Map.find_grains"]}
{"id": "C74", "title": "Boundary lines are the shared pixel edges", "statement": "boundary_points_to_lines and BoundarySet.lines give for every boundary point exactly the unit edge shared by its pixel and the next pixel in x or y, each once, and refuse a call with no points given.", "quantifier": "every pair of point sets", "why_tests_cant": "a geometric identity over all points and all combinations of arguments", "anchors": ["defdap/ebsd.py:BoundarySet.boundary_points_to_lines", "defdap/ebsd.py:BoundarySet.lines"]}
{"id": "C75", "title": "Shipped slip system lists name each system once and have a colour for every plane", "statement": "Loading a shipped slip system file gives pairwise different systems (planes and directions up to sign) and as many trace colours as plane groups.", "quantifier": "every shipped file, c/a ratio and orthonormalisation convention", "why_tests_cant": "The groups come from a fold over the file's rows under equality up to sign; the colour count is checked nowhere and truncates listings silently.", "anchors": ["defdap/crystal.py:SlipSystem.load", "defdap/crystal.py:SlipSystem.group", "defdap/slip_systems"]}
{"id": "C76", "title": "A Datastore keeps one derivative per function", "statement": "After any sequence of add_derivative calls a store has, for each derivation function, exactly the derivative added last for that function, at the position of its first addition; items, generators and other stores are unchanged.", "quantifier": "all sequences of add_derivative calls", "why_tests_cant": "Maps and grains are re-linked any number of times over a session; a duplicate would shadow or be shadowed depending on the history.", "anchors": ["defdap/utils.py:Datastore.add_derivative"]}
{"id": "C77", "title": "Displaying neighbours highlights exactly the grains within two steps", "statement": "Clicking a grain in display_neighbours highlights the grain, its neighbours and the neighbours of those, each exactly once, first neighbours before second.", "quantifier": "every neighbour network and grain", "why_tests_cant": "set of paths in an arbitrary graph", "anchors": ["defdap/base.py:Map.click_grain_neighbours"]}
{"id": "C78", "title": "The centre of a grain lies in its bounding box", "statement": "centre_coords of kind box or com lies inside the bounding box, in map or grain coordinates; other kinds are rejected.", "quantifier": "every non-empty point list", "why_tests_cant": "rounding for unbounded shapes", "anchors": ["defdap/base.py:Grain.centre_coords"]}
{"id": "C79", "title": "Warped lines end between pixels, next to the transformed ends", "statement": "warp_lines keeps the number and order of the lines; every end is at a half-integer position on each axis, at most half a pixel from where the frame transform sends it; lines already at half-integers are unchanged by the identity.", "quantifier": "every list of lines and every transform", "why_tests_cant": "continuum of positions and transforms", "anchors": ["defdap/experiment.py:Experiment.warp_lines"]}
{"id": "C80", "title": "Warped points agree with the warped, cropped image", "statement": "warp_points enlarges the warp by a border and then cuts the border off: the pixels returned are those that the plain warp to the output frame shows at the same place.", "quantifier": "every invertible affine transform, image shape and output shape", "why_tests_cant": "the border and the cut must cancel for every transform; sign cases", "anchors": ["defdap/experiment.py:Experiment.warp_points", "defdap/experiment.py:Experiment.warp_image"]}
{"id": "C81", "title": "A saved homologous point is where it was picked", "statement": "Saving a picked point appends one point, keeps the others, and the saved point times the binning is within half the binning of the picked position.", "quantifier": "every picked position, binning and list of points", "why_tests_cant": "continuum of positions", "anchors": ["defdap/experiment.py:Frame.homog_click_save"]}
{"id": "C82", "title": "Schmid factor maps show the greatest factor of the systems asked for", "statement": "plot_average_grain_schmid_factors_map shows for each grain the greatest of the average Schmid factors of the slip systems with a plane among planes and a direction among directions, all of them where a list is not given; an index out of range or an empty choice is an error.", "quantifier": "every table of factors and choice of planes and directions", "why_tests_cant": "all nested index choices", "anchors": ["defdap/ebsd.py:Map.plot_average_grain_schmid_factors_map"]}
{"id": "C83", "title": "A boundary segment reports the rotation between its grains", "statement": "BoundarySegment.misorientation returns the angle and unit axis of the rotation from the first grain's orientation to the closest symmetry equivalent of the second's; the axis is undefined exactly when they are equivalent, and the angle is the same from either side.", "quantifier": "every pair of orientations and symmetry group", "why_tests_cant": "continuum of orientations", "anchors": ["defdap/ebsd.py:BoundarySegment.misorientation"]}
{"id": "C84", "title": "Euler colours follow the phase of each pixel", "statement": "calc_euler_colour colours every pixel of a chosen phase by its Euler angles divided by the ranges of that phase's structure, and all others with the background colour; colours lie in [0, 1] and an unsupported structure is reported.", "quantifier": "every phase list, choice of phases and map", "why_tests_cant": "all phase lists and choices", "anchors": ["defdap/ebsd.py:Map.calc_euler_colour"]}
{"id": "C85", "title": "The slip trace table describes each grain", "statement": "batch_run_sta prints one row for each group of each grain with drawn lines, with that grain's id, Euler angles and largest Schmid factor and that group's data.", "quantifier": "every inspector state, orientation and set of slip systems", "why_tests_cant": "rows for grains other than the selected one need checking for every state", "anchors": ["defdap/inspector.py:GrainInspector.batch_run_sta"]}
{"id": "C86", "title": "The grain shown is the grain edited", "statement": "At all times the grain id shown in the inspector is that of the grain to which lines are saved and from which they are removed.", "quantifier": "every history of navigation and editing", "why_tests_cant": "failing navigation in the middle of a history", "anchors": ["defdap/inspector.py:GrainInspector.goto_grain"]}
{"id": "C87", "title": "Pole figures use the projection, lines and markers asked for", "statement": "A pole figure uses the projection named (in any case and spacing) or given, otherwise the package default; a line added consists of directions in the plane of its ends from one to the other, and its symmetric copies are its images under the symmetry; points are drawn with the one or two colours asked for.", "quantifier": "all projection arguments, names, line ends, symmetries and colour lists", "why_tests_cant": "unbounded names and continuum of lines", "anchors": ["defdap/plotting.py:PolePlot._validateProjection", "defdap/plotting.py:PolePlot.add_line", "defdap/plotting.py:PolePlot.add_points", "defdap/quat.py:Quat.plot_ipf"]}
{"id": "C89", "title": "Slip traces are drawn at their angles", "statement": "add_traces draws one arrow per angle, along the y axis turned anticlockwise by the angle, in the colour of its position or the last colour; with top_only every arrow points to the upper half.", "quantifier": "all angle and colour lists", "why_tests_cant": "continuum of angles, lists of any length", "anchors": ["defdap/plotting.py:GrainPlot.add_traces"]}
{"id": "C88", "title": "Highlights show the grains asked for in the colours asked for", "statement": "add_grain_highlights draws grain number i in colour number i (the last colour when they run out) and leaves every other pixel as it was; whatever calls are made, the highlight layer and the point layers the plot keeps note of are those layers, updating one changes no other layer, a failed call changes nothing, and locating a grain's neighbours highlights the grain, its neighbours and each second neighbour once in white, yellow and green.", "quantifier": "every map, choice of disjoint grains, colour list and sequence of plot calls", "why_tests_cant": "colour scaling depends on all grains together and layer bookkeeping on the history of calls", "anchors": ["defdap/plotting.py:MapPlot.add_grain_highlights", "defdap/plotting.py:MapPlot.add_points", "defdap/base.py:Map.click_grain_neighbours"]}
{"id": "C90", "title": "A histogram plot counts every value in range once", "statement": "The bins of a histogram run from one end of the given range to the other, at equal steps on a linear axis and equal ratios on a logarithmic one; each data value in range is counted in exactly one bin and nan values in none; densities have total area 1; points stand in the middle of the bins; unknown plot or axes types and reversed ranges are rejected.", "quantifier": "all data, bin numbers, ranges, plot and axes types", "why_tests_cant": "the counts and the area must be right for every data set, bin number and range", "anchors": ["defdap/plotting.py:HistPlot.__init__", "defdap/plotting.py:HistPlot.add_hist", "defdap/plotting.py:HistPlot.create"]}
{"id": "C91", "title": "EDAX text maps load as the map the file describes", "statement": "Loading an EDAX .ang file gives a map with the rows, columns, step size and phases of its header (name, point group, lattice lengths and angles) and, at each pixel, the image quality, confidence index, fit factor and phase of the data line for that pixel, and its Euler angles with the first one turned by a right angle into [0, 2 pi). Phases out of order, non-square grids, unknown point groups and missing dimensions are rejected.", "quantifier": "every file text made of any comment lines, any number of phases with any names, lattice constants and extra lines, any map size and any values written with any number of decimals", "why_tests_cant": "The parser walks free text line by line; wrong columns or lost words show only for particular files, of which tests hold a few.", "anchors": ["defdap/file_readers.py:EdaxAngLoader"]}
{"id": "C92", "title": "Maps given as dictionaries are taken over unchanged or rejected", "statement": "Loading EBSD data from a python dictionary succeeds exactly if all five keys are present, 'phases' is a list of Phase objects and the Euler angle array has shape (3,) + the shape of the phase array; the map then holds the given arrays, step size and phases unchanged. Every array of the map has the shape of the map.", "quantifier": "every dictionary, with any keys missing and arrays of any shapes and contents", "why_tests_cant": "The combinations of missing keys and array shapes are unbounded.", "anchors": ["defdap/file_readers.py:PythonDictLoader"]}
{"id": "C93", "title": "Picking homologous points adds exactly what was selected", "statement": "While homologous points are picked on a plot: selecting a point (right click, or shift and left click), moving it with arrow keys (one pixel each, ten with shift) and saving appends exactly one point to the frame, the moved place divided by the binning to the nearest whole pixel; the plot always shows the frame's points times the binning and at most one selected point; points are only ever added at the end and only by saving; clicks elsewhere, other keys, and saving or moving with nothing selected change nothing. The point selected is the pixel under the pointer. Known to fail: a click in the lower half of a pixel selects its neighbour; if the points were set as an array, saving raises and the selection is lost; a key without name raises.", "quantifier": "all maps, binnings, initial points, and all histories of clicks, key presses and saves", "why_tests_cant": "Depends on every sequence of user events and every pointer position; a test plays one sequence.", "anchors": ["defdap/experiment.py:Frame.set_homog_point", "defdap/experiment.py:Frame.homog_click", "defdap/experiment.py:Frame.homog_click_save", "defdap/plotting.py:MapPlot.add_points"]}
{"id": "C94", "title": "Every map is found in its own increment and experiment", "statement": "Every increment is listed exactly once, by its own experiment. Creating a map registers it under its name in the given increment, or in a new last increment of the given (else the anonymous) experiment, and changes nothing else but a map of the same name there; an increment of another experiment is refused. Going over the maps of a name gives exactly the maps of that name with the places of their increments, in order, also when maps are added meanwhile. Known to fail: a map whose loading raised stays registered and has displaced the good one.", "quantifier": "all sequences of creating experiments, increments and maps, and all interleavings with iteration", "why_tests_cant": "Depends on the whole creation history, including failures.", "anchors": ["defdap/experiment.py:Experiment", "defdap/experiment.py:Increment", "defdap/base.py:Map.__init__"]}
{"id": "C95", "title": "Equivalent indices are all and only the symmetric ones", "statement": "The equivalent indices of a cubic plane or direction are exactly the same three numbers in any order and with any signs, with the last not negative, one entry for each of the 24 symmetries; those of hexagonal four-index planes and directions are, after removing the common factor, exactly the permutations of the first three with one common sign and the last not negative, one entry per symmetry. Bad inputs are refused. Known to fail: indices beyond eight bits wrap around; hexagonal directions given as three indices mostly raise.", "quantifier": "all integer indices, both orthonormalisation conventions, every c/a", "why_tests_cant": "Covers every index triple or quadruple; the wrong entries appear only for particular indices.", "anchors": ["defdap/crystal_utils.py:equavlent_indicies"]}
{"id": "C96", "title": "Indices can be read back from their text", "statement": "The text of indices, in unicode or TeX and with any brackets, determines the indices, and the text of a slip system determines its plane and direction. Non-integers are refused. Known to fail: with two-digit indices different indices share a text.", "quantifier": "all lists of integer indices, text types and brackets", "why_tests_cant": "Injectivity is a statement about all pairs of index lists.", "anchors": ["defdap/crystal_utils.py:idc_to_string", "defdap/crystal_utils.py:str_idx", "defdap/crystal.py:SlipSystem"]}
{"id": "C97", "title": "Labels on a pole plot name the direction they stand at", "statement": "Labelling a direction with its symmetric equivalents puts one label per symmetry, each naming the direction at which it stands; without symmetries one label at the direction; a given text is repeated. Known to fail: the first label of a direction in the southern hemisphere names the opposite direction.", "quantifier": "all integer directions of cubic and hexagonal crystals", "why_tests_cant": "Two independently computed lists must agree entry by entry for every direction.", "anchors": ["defdap/plotting.py:PolePlot.label_point"]}
{"id": "C98", "title": "What a grain reports does not depend on the calls before", "statement": "After any calls on an EBSD grain in any order, the misorientation shown, the GROD data and the slip traces are those computed afresh from the points and the average orientation, and the printed table lists every plane with its colour and angle and every direction with its Schmid factor for the load last used. Known to fail: when the reference was set from outside, whatever was stored before keeps the old reference and components can mix two references; factors or traces calculated for other slip systems are reported as the phase's own; a failed trace calculation gives an empty list at the second reading; relative displacement ratios raise unless the reference was calculated before.", "quantifier": "all grains (any number of points, any slip systems) and all finite histories of calls", "why_tests_cant": "The stored values depend on the whole history of calls, in any order.", "anchors": ["defdap/ebsd.py:Grain.build_mis_ori_list", "defdap/ebsd.py:Grain.calc_grod", "defdap/ebsd.py:Grain.plot_mis_ori", "defdap/ebsd.py:Grain.calc_average_schmid_factors", "defdap/ebsd.py:Grain.calc_rdr", "defdap/ebsd.py:Grain.slip_traces", "defdap/ebsd.py:Grain.calc_slip_traces", "defdap/ebsd.py:Grain.print_slip_traces"]}
{"id": "C99", "title": "Linked misorientations are measured from the master's reference", "statement": "After passing the reference orientations of the first map on and updating the misorientations, every linked grain of the other maps shows the deviation of its own points from the reference of the first map's grain it is linked with (the last link counts), and unlinked grains and the first map are unchanged. Known to fail: if the first map's grain has no reference yet, the linked grain loses its own and is measured from its own average; GROD data read before stays that of the old reference.", "quantifier": "all numbers of maps, links and grains, all earlier states of the grains", "why_tests_cant": "Quantifies over all link lists, with repeated grains, and all earlier states.", "anchors": ["defdap/ebsd.py:Linker.set_ref_ori_from_master", "defdap/ebsd.py:Linker.update_misori", "defdap/ebsd.py:Grain.plot_mis_ori"]}
{"id": "C100", "title": "A misorientation map shows each grain's own deviations", "statement": "Plotting the misorientation map of an EBSD map shows, at every point of every grain, the deviation of that point from the average orientation of its grain (the angle, or a component of the rotation vector, in degrees) and 0 outside grains, whatever was called on the grains before; and it always agrees with what plotting each grain on its own shows afterwards, even when reference orientations were set from outside.", "quantifier": "every map, set of grains, component 0 to 3 and history of calls on every grain", "why_tests_cant": "Maps keep per-grain results between calls; a stale or misplaced value appears only for particular histories and shapes.", "anchors": ["defdap/ebsd.py:Map.calc_grain_mis_ori", "defdap/ebsd.py:Map.plot_mis_ori_map", "defdap/ebsd.py:Grain.plot_mis_ori"]}
{"id": "C101", "title": "A pixel's IPF colour is that of its own orientation in its own phase", "statement": "In the colours calculated for an orientation map (IPF colours along a direction, Euler colours), every pixel of a phase asked for has the colour of its own orientation under its own phase's symmetry, independent of the other pixels, and every other pixel has the background colour, whatever number type the background has.", "quantifier": "every map of phases and orientations, set of phases, direction and background", "why_tests_cant": "Colours are calculated for all pixels of a phase together and written back through a mask, so mixing between pixels or phases depends on the map.", "anchors": ["defdap/ebsd.py:Map.calc_ipf_colour", "defdap/ebsd.py:Map.calc_euler_colour", "defdap/quat.py:Quat.calc_ipf_colours"]}
{"id": "C102", "title": "Plots of one value per grain show each grain's own value at its own place", "statement": "Plotting one value per grain, as a map or as markers in an inverse pole figure, shows for every grain asked for its own value (given, or the mean of the map data over the grain) at that grain's pixels, or at the direction of that grain's orientation under its own phase's symmetry; too many or too few values, or neither values nor data, are refused.", "quantifier": "every set of grains, values, grain numbers and directions", "why_tests_cant": "A shifted or reordered value shows plausible pictures; whether it happens depends on the order and choice of grains.", "anchors": ["defdap/base.py:Map.plot_grain_data_map", "defdap/base.py:Map.plot_grain_data_ipf", "defdap/base.py:Map.calc_grain_average", "defdap/base.py:Map.grain_data_to_map"]}
{"id": "C103", "title": "The colour bar label and the scale bar fit the data plotted", "statement": "The label of a plotted map consists of the name of the data, the component shown and the unit; two different components have different labels and the same component always the same label; the scale is that of the map divided by the binning of the data; what the caller gives replaces either.", "quantifier": "every data description, component, map scale and caller arguments", "why_tests_cant": "Labels are put together from stored descriptions; ambiguity appears only for particular components.", "anchors": ["defdap/base.py:Map.plot_map", "defdap/base.py:Grain.plot_grain_data", "defdap/base.py:Map._validate_component"]}
{"id": "C104", "title": "A grain's picture of a component is the map's picture cut out along the grain", "statement": "Plotting a named component on a grain shows, in the grain's bounding box, at every pixel of the grain exactly the value the map's plot of the same component shows there and the background elsewhere; what the map refuses the grain refuses with the same exception. The same holds for Euler and IPF colours calculated on the grain and on the map.", "quantifier": "every map size, grain, data of any order and component selector, including negative and missing ones; every set of phases, orientations and directions", "why_tests_cant": "the selectors, the data orders, the grains and the orientations are unbounded, and two separate code paths must agree on all of them", "anchors": ["defdap/base.py:Grain.plot_map", "defdap/base.py:Grain.grain_data", "defdap/base.py:Grain._extract_component", "defdap/base.py:Grain._validate_component", "defdap/base.py:Map.plot_map", "defdap/ebsd.py:Grain.calc_ipf_colour", "defdap/ebsd.py:Grain.calc_euler_colour"]}
{"id": "C105", "title": "What a DIC map shows after any history of calls depends only on the last settings", "statement": "After any sequence of set_crop, calc_mask, set_pattern, link_ebsd_map, load_corr_val_data, changes of homologous points and reads: the shape is the size less the crop distances given last; the pattern read is the image set last, checked against the size of the data and cropped with its own binning; a refused mask leaves the earlier one and an accepted one hides exactly its (dilated) pixels; boundaries and grains are those of the map linked last; data refused by load_corr_val_data are not kept.", "quantifier": "every finite sequence of calls with any arguments, including refused ones, on a map of any size; every grain finder", "why_tests_cant": "histories are unbounded and the interesting ones interleave calls that tests make once and in order", "anchors": ["defdap/hrdic.py:Map.set_crop", "defdap/hrdic.py:Map.crop", "defdap/hrdic.py:Map.calc_mask", "defdap/hrdic.py:Map.set_pattern", "defdap/hrdic.py:Map.load_pattern", "defdap/hrdic.py:Map.link_ebsd_map", "defdap/hrdic.py:Map.load_corr_val_data", "defdap/hrdic.py:Map.find_grains", "defdap/hrdic.py:BoundarySet.from_ebsd_boundaries", "defdap/utils.py:Datastore._get_derived_item"]}
{"id": "C106", "title": "A line profile shows the map along the line that was drawn", "statement": "After dragging from one point of a plot to another, the profile is a curve of samples equally spaced from the start to the end, at most one pixel apart, each drawn at its distance from the start with the value of the image there: the pixel's own value at a pixel, linear between the four pixels around it otherwise, the nearest value of the map beyond its edge. The line drawn the other way gives the same values in reverse. The line starts where the drag began.", "quantifier": "every image size and content, every pair of end points on or off pixels and beyond the map, every sequence of mouse events on and off the plot", "why_tests_cant": "end points are real numbers and event sequences are unbounded; interpolation errors show only between pixels and beyond edges", "anchors": ["defdap/base.py:Map.draw_line_profile", "defdap/base.py:Map.calc_line_profile", "defdap/plotting.py:Plot.line_slice"]}
{"id": "C107", "title": "The statistics table lists the right percentiles of each component", "statement": "print_stats_table prints one column per percentage asked for and, for each component asked for in order, one row per index of its tensor in index order, named by the component and the indices counted from 1. Each entry is the percentile (linear between the two nearest ranks) of the numbers among that component's pixels, nan left out: 0 is the least, 100 the largest, percentiles never decrease, and a component without numbers shows nan. Percentages outside 0 to 100 and names that are not data are refused.", "quantifier": "every map size, tensor order, data with or without nan, list of percentages and of components", "why_tests_cant": "the order of values, ties, nan and the tensor's shape are arbitrary; a test checks a few percentiles of one array", "anchors": ["defdap/hrdic.py:Map.print_stats_table"]}
{"id": "C108", "title": "What an EBSD map shows after any history of calls", "statement": "Reading any of an EBSD map's data (orientations, boundaries, grains, KAM, GND, proxigram) changes nothing that the map shows, and a call that raises leaves what is shown unchanged. After a history in which nothing is changed once something that follows from it has been calculated, the stored boundaries, grains, KAM, GND, proxigram and neighbour network are all those of the present orientations, phases and primary phase, for the misorientation tolerance asked for last. After any history at all, generating boundaries, grains, KAM, Nye tensor, proxigram and network in this order brings everything to the present data.", "quantifier": "All maps of any shape, all histories of reads, data.generate calls, direct find_grains calls, build_neighbour_network, rotate_data, filter_data and changes of primary phase, all tolerances and minimum sizes.", "why_tests_cant": "Whether a stored result is out of date depends on the whole history of calls; tests try a few orders.", "anchors": ["defdap/ebsd.py:Map.rotate_data", "defdap/ebsd.py:Map.filter_data", "defdap/ebsd.py:Map.find_boundaries", "defdap/ebsd.py:Map.find_grains", "defdap/ebsd.py:Map.build_neighbour_network", "defdap/ebsd.py:Map.calc_kam", "defdap/ebsd.py:Map.calc_nye", "defdap/base.py:Map.calc_proxigram", "defdap/base.py:Map.grains", "defdap/utils.py:Datastore.generate"]}
{"id": "C109", "title": "Neighbouring grains on maps with boundary pixels", "statement": "Building the neighbour network of a map whose boundaries are pixels joins two grains exactly if they are different and both have pixels above, below, left or right of a common boundary pixel that is not at the edge of the map. Small regions and boundary pixels are not grains of the network. If the call fails, the network stored before stays.", "quantifier": "All map sizes, label images, boundary images and numbers of grains.", "why_tests_cant": "Which grains meet depends on the whole label image; tests look at one map.", "anchors": ["defdap/base.py:Map.build_neighbour_network", "defdap/base.py:Map.display_neighbours"]}
{"id": "C110", "title": "A plot shows what was asked for, where it was asked for", "statement": "Plotting a map with data, colour bar, grain boundaries, highlighted grains and scale bar draws exactly these, in this order, on the axes that were given (or on new ones), and changes no other axes; boundaries, highlights and scale are those of the map that is plotted, in the colours asked for, and the colour bar describes the data just drawn; what cannot be drawn (a colour bar without data, a scale bar without a scale, grains that do not exist) is refused; clearing an interactive plot leaves nothing behind; for a grain, slip traces and bands come last.", "quantifier": "every map, data, choice of arguments, set of figures and axes already there, and plot passed in", "why_tests_cant": "The outcome depends on the combination of a dozen arguments and on what the figures already hold; tests look at one new figure.", "anchors": ["defdap/plotting.py:MapPlot.create", "defdap/plotting.py:GrainPlot.create", "defdap/plotting.py:Plot.__init__", "defdap/plotting.py:Plot.clear", "defdap/plotting.py:MapPlot.add_colour_bar", "defdap/plotting.py:MapPlot.add_scale_bar", "defdap/plotting.py:MapPlot.add_grain_boundaries", "defdap/ebsd.py:Map.plot_boundary_map"]}
{"id": "C111", "title": "The inspector's window shows the grain that is edited", "statement": "The inspector opens, and after any events its window is about the grain that is edited: id, picture, unit cell and slip traces are that grain's, the lists hold exactly its lines and its groups with their ratios, and the picture has exactly one numbered arrow for each line, and besides these only the line drawn last with the mouse, which is the one that would be saved.", "quantifier": "every map, sequence of mouse events, buttons, text boxes and loaded files, in any order", "why_tests_cant": "What the window shows is the accumulated effect of partial redrawings, and handlers are connected again at every redrawing; only reasoning over all histories shows when it agrees with the data.", "anchors": ["defdap/inspector.py:GrainInspector.redraw", "defdap/inspector.py:GrainInspector.redraw_line", "defdap/inspector.py:GrainInspector.save_line", "defdap/inspector.py:GrainInspector.goto_grain", "defdap/inspector.py:GrainInspector.remove_line", "defdap/inspector.py:GrainInspector.clear_all_lines", "defdap/inspector.py:GrainInspector.run_rdr_group", "defdap/plotting.py:Plot.add_arrow", "defdap/plotting.py:Plot.line_slice", "defdap/plotting.py:GrainPlot.add_slip_bands"]}
{"id": "C112", "title": "The unit cell drawn is the crystal's cell in its orientation", "statement": "Plotting the unit cell of an orientation draws the faces of the crystal's cell as they lie in the sample: taking the corners to crystal coordinates by the orientation gives back the vertices of the cell at a common scale, so the picture is similar to the cell, closed, and the same for all symmetrically equivalent orientations. The corners of a hexagonal cell are lattice points of the phase in the configured axis convention.", "quantifier": "all unit quaternions, both structures and conventions, all symmetry operators, all c/a ratios", "why_tests_cant": "tests draw a few orientations without looking at the geometry; similarity and symmetry hold or fail over all rotations", "anchors": ["defdap/quat.py:Quat.plot_unit_cell", "defdap/crystal.py:crystalStructures", "defdap/crystal_utils.py:create_l_matrix"]}
{"id": "C113", "title": "An inverse pole figure plot shows every orientation inside the frame it draws", "statement": "A new inverse pole figure plot has three curves and three labels. The curves bound exactly the part of the plane onto which the directions of the fundamental triangle are projected, run from corner to corner, and each corner carries the indices of its direction. Every orientation plotted gives one point, at the projection of the one equivalent of the sample direction that lies in the triangle, so inside the frame. This holds in both projections, for cubic crystals and for hexagonal ones in both triangle conventions and any axis convention. Drawing on a plot that is already there keeps its frame and adds one set of points, and a colour bar asked for describes the points just added.", "quantifier": "all lists of unit orientations, all sample directions, both projections, both crystal types, all configured conventions, all points of the plane", "why_tests_cant": "Containment of a projected point in a curved region is a statement over all real directions; tests look at a few orientations or at images.", "anchors": ["defdap/plotting.py:PolePlot.add_axis", "defdap/plotting.py:PolePlot.add_line", "defdap/plotting.py:PolePlot.label_point", "defdap/plotting.py:PolePlot.add_points", "defdap/plotting.py:PolePlot.add_colour_bar", "defdap/quat.py:Quat.plot_ipf", "defdap/quat.py:Quat.calc_fund_dirs"]}
{"id": "C114", "title": "The ratio window shows the fit and names the slip systems that match", "statement": "When the relative displacement ratio of a group of lines is calculated, the measured slope is recorded with the group; the window shows every sample as a point at its deviations of u and v, a line through the fit, a table with each slip plane's trace angle and each system's Schmid factor and ratio (the group's planes in bold), and beside the measured ratio every theoretical ratio within 1.5 of it, named by exactly the slip systems that have it.", "quantifier": "every inspector history, grain, group, displacement map, orientation, phase and history of the EBSD grain", "why_tests_cant": "A figure can be compared for a few grains only; the statement is about all samples, all slip systems with equal or undefined ratios, and the order of earlier calls.", "anchors": ["defdap/inspector.py:GrainInspector.plot_rdr", "defdap/inspector.py:GrainInspector.calc_rdr", "defdap/ebsd.py:Grain.calc_rdr"]}
{"id": "C115", "title": "Detected slip bands depend on the pattern of strain in a grain and not on its unit, sign or the grain's shape", "statement": "For any map of strain in a grain, the slip band angles returned are the same when the data are multiplied by any number other than 0, when the sign of any of the values changes, and when nan is replaced by 0. Each angle is a whole degree between 0 and 180, given in radians. A grain strained equally everywhere gives no bands, whatever its shape. Unset options are a threshold of 0.3 and 30 degrees between bands.", "quantifier": "every size of map, every array of strains with or without nan, every factor, every threshold and distance, and every transform and peak finder that meet the stated conditions", "why_tests_cant": "A test looks for bands in one map. That no choice of unit and no shape of grain brings in or loses a band is a claim about all maps.", "anchors": ["defdap/hrdic.py: Grain.calc_slip_bands"]}
{"id": "C116", "title": "A map of Schmid factors is about the direction of load calculated last, for every grain", "statement": "After calculating the Schmid factors of all grains of a map for a direction of load, whatever else is called that does not calculate factors, the map of Schmid factors shows at every pixel of every grain the greatest factor of the slip systems asked for, for that direction and the grain's reference orientation. If the calculation fails at a grain, no map of mixed factors is shown. Displacement ratios can likewise be calculated for all grains.", "quantifier": "every map of grains in any state, every direction of load, list of systems, choice of planes and directions, and sequence of later calls; every grain at which the calculation fails", "why_tests_cant": "A test has one map whose phases all have slip systems. What every pixel shows after any history, and after a failure at any grain, is a claim about all maps and histories.", "anchors": ["defdap/ebsd.py: Map.calc_average_grain_schmid_factors", "defdap/ebsd.py: Map.calc_rdr", "defdap/ebsd.py: Map.plot_average_grain_schmid_factors_map", "defdap/base.py: Map.plot_grain_data_map"]}
{"id": "C117", "title": "Legends and numbers on maps identify what they label", "statement": "On a map of phases made on a new plot, every pixel has the colour that the legend shows beside the name of its phase, for all limits and colours; unindexed pixels come first; with default limits and enough colours no two phases share one. A map of phase boundaries shows 1 exactly on them, and dilated also on the pixels beside them. Numbers drawn on a map are the ids of the grains, each inside its grain's bounding box. (A map of phases drawn on a given plot takes the legend's colours from the first image there; a map without phases fails; a number can lie on another grain; the map of grains shows the id plus one.)", "quantifier": "all maps, phases, limits, colour tables and grains", "why_tests_cant": "whether legend and image agree depends on limits, colours and every pixel", "anchors": ["defdap/ebsd.py: Map.plot_phase_map, num_phases, plot_phase_boundary_map, plot_grain_map", "defdap/plotting.py: MapPlot.add_legend, add_grain_numbers", "defdap/base.py: Map.plot_grain_numbers"]}
{"id": "C118", "title": "A DIC map made from a file has the strain of the deformation the file records", "statement": "A map made from a DaVis, OpenPIV or PyVale file whose points all move with one deformation of the plane has exactly that deformation gradient, its Green strain and its greatest shear at every pixel, edges included, with the size, step and positions of the file; the scale is the length from a pixel to the next once it is set; correlation values of the map's size are taken over and change nothing else. (OpenPIV points given with y increasing come out with the wrong sign of all derivatives along y; correlation values of another size are refused but stay on the map.)", "quantifier": "all files, deformations, grid sizes, steps and origins", "why_tests_cant": "holds for every deformation and grid; tests try one file", "anchors": ["defdap/hrdic.py: Map.__init__, load_data, load_corr_val_data, set_scale, scale", "defdap/file_readers.py: DavisLoader, OpenPivTextLoader, OpenPivBinaryLoader, PyValeLoader"]}
{"id": "C119", "title": "The selected, highlighted and shown grain is the one clicked last", "statement": "Whatever plots of a map are opened and clicked on, in whatever order, the selected grain is the one clicked on last in any of them, each plot for locating grains highlights exactly the grain clicked on last in it, a grain that is displayed appears in the window open for this or in one new window while no other window changes, and the origin is the pixel clicked on last, which the plot clicked on marks.", "quantifier": "all grain maps, all histories of opening plots, clicking on and beside the map and its grains, closing windows, building the neighbour network and grains becoming or ceasing to be drawable", "why_tests_cant": "The state is spread over the map, its plots and windows and depends on the whole history; tests click once.", "anchors": ["defdap/base.py:locate_grain", "defdap/base.py:click_grain_id", "defdap/base.py:click_grain_neighbours", "defdap/ebsd.py:Linker.set_origin", "defdap/ebsd.py:Linker.click_set_origin"]}
{"id": "C120", "title": "Grains survive saving and loading a map", "statement": "Loading a file that an EBSD map was saved to gives a map of the same shape with the same phases in the same order, the same phase and band contrast at every pixel, and every orientation within 0.0015 degrees. Boundaries and grains generated in the loaded map are those generated in the saved one, for every tolerance and least grain size, and saving does not change what is found in the map that is saved. A loaded map can be saved and loaded again, and then nothing changes any more.", "quantifier": "every map with band contrast whose data can be written and read, every history before saving, every tolerance and least size", "why_tests_cant": "Grains depend on every pair of neighbours and on the tolerance; a test compares the grains of a few maps at one tolerance, where no rounded angle happens to cross it.", "anchors": ["defdap/ebsd.py:Map.save", "defdap/ebsd.py:Map.load_data", "defdap/ebsd.py:Map.find_boundaries", "defdap/ebsd.py:Map.find_grains", "defdap/file_writers.py:OxfordTextWriter", "defdap/file_readers.py:OxfordTextLoader"]}
{"id": "C121", "title": "A pixel of a DIC map is in the EBSD grain that the homologous points put there, however the map is cropped", "statement": "Link a DIC map to an EBSD map with homologous points and find grains with the 'warp' method. If an affine map takes the points of the data to those of the EBSD map, each pixel of the cropped map belongs to the DIC grain linked to the EBSD grain at the pixel nearest to where that map takes the pixel of the data, after any calls of set_crop that update the points; a pixel taken beyond the centres of the outer EBSD pixels is in no grain. Grains are found exactly if some pixel comes to lie in an EBSD grain. For any points, and any transform whose estimate moves along with the points, two ways of cropping put the same EBSD grain at the same pixel of the data.", "quantifier": "All histories of set_crop with update_homog_points=True, all sizes, all homologous points not on one line, all EBSD label maps, all estimates with the stated properties (least squares is proved to be one)", "why_tests_cant": "A test uses one crop and one set of points; the claim relates every crop history to every other and to the position on the material.", "anchors": ["defdap/hrdic.py:Map.set_crop", "defdap/hrdic.py:Map.link_ebsd_map", "defdap/hrdic.py:Map.warp_to_dic_frame", "defdap/hrdic.py:Map.find_grains", "defdap/experiment.py:Experiment.get_frame_transform", "defdap/experiment.py:Experiment.warp_image"]}
{"id": "C122", "title": "Grains of an EBSD map do not depend on how its orientations are described, and turn with the map", "statement": "For one tolerance and one least grain size, two EBSD maps with the same phases give the same boundaries, labels, grains and grain phases whenever the second describes the orientations of the first by symmetrically equivalent ones, in sample axes that differ by any fixed rotation. A map turned with rotate_data gives the grains and the boundaries of the map, at the turned pixels and with the same sizes and phases.", "quantifier": "all map sizes, phases, Euler angles, symmetry operators at each pixel, fixed rotations, tolerances and least sizes", "why_tests_cant": "A test compares a few small maps; equivalence must hold for each choice of operator at every pixel and for every misorientation near the tolerance, and turning must preserve connectivity of regions of all shapes although pixels are visited in another order.", "anchors": ["defdap/ebsd.py:Map.rotate_data", "defdap/ebsd.py:Map.find_boundaries", "defdap/ebsd.py:Map.find_grains", "defdap/quat.py:Quat.calc_sym_eqvs"]}
{"id": "C123", "title": "Quaternions are made of four numbers, and only +=, normalise and setting a component change one", "statement": "Quat(...) takes exactly four numbers, apart or in one sequence, keeps them up to a common sign and raises TypeError for anything else. Through any history of statements a quaternion keeps its components unless +=, normalise or item assignment is applied to that very object; *, + and conjugate give new objects and leave their operands alone; a statement that raises changes nothing. Without allow_southern and item assignment all quaternions of a history are in the northern hemisphere. extract_quat_comps gives the components of each quaternion of a list, from which the quaternions can be made again.", "quantifier": "all histories of statements over all objects, with any aliasing (a += a included), all numbers given, zero quaternions and nan components", "why_tests_cant": "Tests check single operations on fresh objects; that operands stay unchanged and quaternions stay northern must hold after every history and for all aliasings.", "anchors": ["defdap/quat.py:Quat.__init__", "defdap/quat.py:Quat.__mul__", "defdap/quat.py:Quat.__iadd__", "defdap/quat.py:Quat.normalise", "defdap/quat.py:Quat.extract_quat_comps"]}
{"id": "C124", "title": "What a DIC grain says about its crystal is what the EBSD grain it lies on says", "statement": "After DIC grains are generated on a linked EBSD map, asking a DIC grain for its phase, reference orientation or slip traces, or calculating its slip traces, does and answers the same as the same call on the EBSD grain labelled at the place of any of its pixels (for flood filled grains: of the most frequent label under it), whatever was called on grains of either map before; every pixel that lies on an EBSD grain is in a DIC grain. The points of the EBSD grain at a position are the pixels with its label. Its phase is that of the grain found there, its reference orientation the average over the points of that grain.", "quantifier": "All histories of finding grains in either map, directly or through the data, of calls on single grains of either map and on all EBSD grains; all labels, samplings and grains", "why_tests_cant": "The grains are shared objects whose state depends on the whole history of calls on either map; a test sees one history.", "anchors": ["defdap/hrdic.py:Grain.ref_ori", "defdap/hrdic.py:Grain.phase", "defdap/hrdic.py:Grain.slip_traces", "defdap/hrdic.py:Grain.calc_slip_traces", "defdap/hrdic.py:Map.find_grains", "defdap/base.py:Map.grains", "defdap/ebsd.py:Map.find_grains"]}
{"id": "C125", "title": "A flood filled DIC grain is linked to the EBSD grain with most pixels in it", "statement": "After linking a DIC map to an EBSD map and any cropping with update, finding grains by flood fill gives the grains of the flood fill, each with the EBSD grain whose label is the most frequent among those EBSD pixels that lie in the DIC grain; it works whenever every DIC grain has an EBSD pixel in it (with an ordinary label).", "quantifier": "all boundary images, sizes, label maps, minimum sizes, homologous points related by an invertible affine map, crop histories, and for the general form all transforms", "why_tests_cant": "Tests link one pair of maps with one set of points; the EBSD pixels under a grain depend on every map size, transform, crop history and label image.", "anchors": ["defdap/hrdic.py:Map.find_grains", "defdap/experiment.py:Experiment.warp_image", "defdap/experiment.py:Experiment.get_frame_transform"]}
{"id": "C126", "title": "Rounding does not move grain boundaries", "statement": "With the orientations as finite double precision numbers whose squares sum to at most 5/4, every misorientation that boundary detection computes between neighbouring pixels is a number, never nan, and is within 1/5000 degree of the exact one, in whatever order the library adds the products. Where no neighbouring pair is within 1/1000 degree of the tolerance, the boundaries and the grains found are those of exact arithmetic. The misorientation of two single quaternions is within 2^-44 of the exact one, but can exceed one for a normalised quaternion and itself, so that the documented 2*arccos(output) is nan; and at tolerance zero a map of one orientation can be cut into single pixels.", "quantifier": "Every map, group, orientation and tolerance from 0 to 360 degrees; every order and fusing of the additions; every arccos within 2^-50 that gives 0 at 1", "why_tests_cant": "Tests run one library build on a few maps; the result must hold for every rounding of every orientation and for each order in which numpy may add.", "anchors": ["defdap/ebsd.py:Map.find_boundaries", "defdap/ebsd.py:Map.find_grains", "defdap/quat.py:Quat.mis_ori", "defdap/quat.py:Quat.__mul__", "defdap/ebsd.py:BoundarySegment.misorientation"]}
{"id": "C127", "title": "Orientations from single precision Euler angles", "statement": "The loaders store Euler angles as 32 bit floats and a map's orientations are computed from them in 32 bits before being widened. For any finite Euler angles of up to 7.9 radians, whatever sines and cosines accurate to 2^-23 do, every pixel's orientation is four numbers (never nan) within 11/10^7 of the orientation the angles stand for, up to a common sign; the misorientation found for neighbours is within 2/5 degree of the true one; and if no neighbours' true misorientation is within half a degree of the tolerance, the boundaries and grains found are exactly those of the true orientations in exact arithmetic. It is not so that neighbours with identical Euler angles are always in one grain: with correctly rounded sines and cosines a map of one orientation is cut at every pixel at tolerances of 1/50 degree and below.", "quantifier": "every map size, every map of Euler angles, every symmetry group, phase map and tolerance, every sine, cosine and arc cosine within the stated error, every order of summation", "why_tests_cant": "Rounding errors depend on the bits of each angle and on the library's sine and cosine; a test sees single maps on one machine.", "anchors": ["defdap/quat.py:Quat.create_many_quats", "defdap/file_readers.py:EBSDDataLoader", "defdap/ebsd.py:Map.calc_quat_array", "defdap/ebsd.py:Map.find_boundaries"]}
{"id": "C128", "title": "Oxford binary scans load as written", "statement": "Loading the .cpr/.crc pair of a scan gives the map the two files describe: shape, step size, acquisition rotation, every phase (name, Laue and space group, lattice rounded to three decimals, angles in radians), and at every pixel the phase, band contrast, band slope, mean angular deviation, three Euler angles and the counts of each EDX window that the .crc file stores there, whatever the order of the sections, entries and record fields and whatever other entries there are. The path given without extension, or with .cpr or .crc, stands for that pair; orientations and grains follow from the stored angles.", "quantifier": "all scans (any size, any phases of a supported Laue group, any EDX windows, any order of the record fields, any single precision values) and all headers that describe them among arbitrary other sections, entries, comments; all paths", "why_tests_cant": "Tests load one or two shipped scans with one field order; a wrong field offset, phase index, rounding or window order shows only for other headers, and which file a path stands for depends on every character of the name.", "anchors": ["defdap/file_readers.py:OxfordBinaryLoader.load", "defdap/file_readers.py:OxfordBinaryLoader.load_oxford_cpr", "defdap/file_readers.py:OxfordBinaryLoader.load_oxford_crc", "defdap/file_readers.py:EBSDDataLoader.get_loader", "defdap/base.py:Map.__init__", "defdap/ebsd.py:Map.load_data"]}
{"id": "C129", "title": "Strains of DIC maps in double precision are accurate, and only missing neighbours are missing in them", "statement": "For every DIC map with sub-windows of at least one pixel: at every pixel whose neighbours have finite displacements, with gradients up to 2^k (k <= 200), the deformation gradient, the Green strain and the effective shear that the map holds are finite numbers, within 2^(k-50), 4^k/2^46 and 4^k/2^43 of what exact arithmetic gives, in whatever order the library sums products; the shear is never negative. A map that moved as a whole, however far, has exactly the identity and exactly zero strain. A displacement that is missing (nan) makes the shear missing at exactly the pixels that read it.", "quantifier": "All map sizes from 2 x 2, all double precision displacements, sub-window sizes, orders of summation and fused operations, all pixels", "why_tests_cant": "Tests compare a few maps with a tolerance; they cannot bound rounding for all displacements, nor say for all maps where missing values spread", "anchors": ["defdap/hrdic.py:Map.__init__"]}
{"id": "C130", "title": "KAM and grain misorientations survive rounding", "statement": "For orientations whose coefficients are finite double precision numbers of length about one, the kernel average misorientation of every pixel and the misorientation of every point of a grain to its reference orientation are numbers, never nan, within 1/3000 degree of the values without rounding. The misorientation axis vector of every point that is between 0.1 and 179 degrees from the reference is within a millionth of that of a closest symmetric equivalent.", "quantifier": "all map sizes, orientations, symmetry groups, reference orientations, lists of points, orders of summation and all arc cosines within 2^-50", "why_tests_cant": "Rounding depends on the order in which the processor adds; tests use a few maps with tolerances and rarely hit points close to the reference, where the axis is nan.", "anchors": ["defdap/ebsd.py:Map.calc_kam", "defdap/ebsd.py:Grain.calc_grod", "defdap/quat.py:Quat.calcMisOri", "defdap/quat.py:Quat.calc_sym_eqvs"]}
{"id": "C131", "title": "Normalised quaternions and average orientations survive rounding", "statement": "Normalising a quaternion of double precision numbers, not all of them tiny and none huge, gives numbers within 2^-45 of the normalised quaternion, of length one within 2^-41. The average orientation of a grain whose first point is no half turn consists of numbers, in the northern hemisphere and of length one within 2^-41; where the nearest equivalent of each point is clear and the points do not cancel it is within 2^-42 per point of the average without rounding. The misorientation of every point to that average is a number within 1/3000 degree of the angle without rounding.", "quantifier": "all quaternions, symmetry groups, lists of up to 2^50 (2^20 for closeness) points, orders of summation and arc cosines within 2^-50", "why_tests_cant": "Errors of sums grow with the number of points and depend on the order of summation; half turns and extreme magnitudes are not in test data.", "anchors": ["defdap/quat.py:Quat.normalise", "defdap/quat.py:Quat.calc_average_ori", "defdap/ebsd.py:Grain.calc_grod"]}
{"id": "C132", "title": "Schmid factors survive rounding", "statement": "For an orientation, a load vector and slip vectors given as finite double precision numbers of length about one, every Schmid factor is a number, not negative, and within 2^-39 of the product of cosines without rounding. For vectors of length one and slip directions in their planes, up to 2^-41, no factor exceeds 1/2 by more than 2^-38; the slip vectors computed from the Miller indices of cubic crystals are such vectors, and so is the average orientation of a grain whose first point is no half turn. A nan in the orientation or the load makes every factor nan.", "quantifier": "all orientations, loads, groups of slip systems, Miller indices below 2^53, lists of up to 2^50 points and orders of summation", "why_tests_cant": "Tests compare a few factors with a tolerance; the excess over one half and the spread of nan depend on the numbers and on the order of summation.", "anchors": ["defdap/quat.py:Quat.transform_vector", "defdap/ebsd.py:Grain.calc_average_schmid_factors", "defdap/crystal.py:SlipSystem.__init__"]}
{"id": "C133", "title": "Slip traces in double precision", "statement": "calc_slip_traces computes in double precision. For an orientation and a plane normal of length one up to 2^-41, the orientation with a scalar part that is not negative, and whatever the order in which the library sums products: the trace angle of a plane whose angle to the screen has a sine of at least 2^-38 is a number from 0 to pi, never nan by rounding, and its cosine is that without rounding within 2^-38 over this sine, unless the trace is within 2^-38 of vertical, where the angle may be near the other end of the range. The inclination is a number from 0 to pi/2 with the cosine of the exact one within 2^-40 if the plane is not about parallel to the screen. If it is parallel, the inclination may be nan instead of 0, and a trace angle may be given although there is no trace. nan in the orientation or the normal makes both angles nan. There is one pair of angles per group of slip systems, for the plane of the first system of each; an empty group is an IndexError.", "quantifier": "every orientation and plane normal of finite double precision numbers of length one up to 2^-41, every order of the sums, every arccos with an error of at most 2^-50, every list of groups", "why_tests_cant": "Whether an arccos argument exceeds one after rounding depends on the last bits of all inputs and on the order of sums in the numerical library; tests see a few planes and one library.", "anchors": ["defdap/ebsd.py:calc_slip_traces", "defdap/quat.py:transform_vector"]}
{"id": "C134", "title": "Theoretical displacement ratios in double precision", "statement": "calc_rdr of a grain computes in double precision. For an orientation and a slip direction of length about one and whatever the order in which the library sums products: if the vertical coefficient of the slip direction in the sample is at least 2^-42 in size, the ratio is a number and differs from the exact one (minus the horizontal over the vertical coefficient) by at most 2^-42 (1 + the size of the ratio) over this coefficient. If the direction is horizontal there is no exact ratio; what is computed may be an infinity, nan, or some large number. nan in the orientation or direction gives nan. There is one ratio per slip system in the order of the systems; without a reference orientation the call is an AttributeError as soon as there is a slip system.", "quantifier": "every orientation and slip direction of finite double precision numbers of length about one, every order of the sums, every list of groups of slip systems, every list of single precision Euler angles for a grain loaded from a file", "why_tests_cant": "The error depends on the last bits of all inputs, on the library's order of sums and on how near to zero the divisor is; tests see a few systems and one library.", "anchors": ["defdap/ebsd.py:calc_rdr", "defdap/quat.py:transform_vector"]}
{"id": "C135", "title": "Rotation matrices survive rounding", "statement": "rot_matrix computes in double precision. For a quaternion of length about one, and a square that is accurate to one unit in the last place: every entry is a number within 2^-47 of the one without rounding; for length one up to 2^-41 rows are of length one and perpendicular up to 2^-38 and the determinant is one up to 2^-38; applied to a vector the matrix agrees with transform_vector up to 2^-43. A quaternion and its opposite have the same matrix to the last bit, the conjugate has the transpose, and no rotation has the identity matrix exactly. nan in a coefficient makes every entry nan. Entries may exceed one.", "quantifier": "every quaternion of finite double precision numbers of length about one, every vector of length about one, every squaring function accurate to one unit in the last place, every order of the sums in transform_vector", "why_tests_cant": "The error depends on the last bits of four numbers; tests compare a few rotations to some decimals.", "anchors": ["defdap/quat.py:rot_matrix", "defdap/quat.py:transform_vector"]}
{"id": "C136", "title": "Dislocation densities in double precision", "statement": "The distortion between a pixel and its neighbour, the Nye tensor and the GND density that calc_nye computes from it are computed in double precision. For orientations of length one up to 2^-41 (the neighbour's being the equivalent chosen), step sizes from 2^-100 to 2^100, any order of the sums, and a square accurate to one unit in the last place: each entry of the distortion is a number within 2^-43 of 10^6 over the step of the one without rounding, and the density is within 2^-38 of 10^6 over the step and the Burgers vector. Where neighbouring orientations are the same numbers, the density is at most 2^-36 of that unit, though it need not be zero. nan in an orientation makes the density nan.", "quantifier": "every pair of orientations of finite double precision numbers of length one up to 2^-41, every step size from 2^-100 to 2^100, every order of the sums, every squaring function accurate to one unit in the last place", "why_tests_cant": "Differences of nearly equal rotations are divided by a step of about 10^-6 m and a Burgers vector of about 10^-10 m, so rounding is magnified by about 10^16; whether it stays below densities of interest cannot be seen from a few pixels.", "anchors": ["defdap/ebsd.py:calc_nye", "defdap/quat.py:rot_matrix"]}
