-Q theories Verif
theories/Model/Outcome.v
theories/Model/Num.v
theories/Model/Instances.v
theories/Model/Numpy.v
theories/Model/BaseArray.v
theories/Model/Compare.v
theories/Model/Vector.v
theories/Model/Points.v
theories/Model/Functions.v
theories/Model/Line.v
theories/Model/Plane.v
theories/Model/LineSegment.v
theories/Model/Sphere.v
theories/Model/Triangle.v
theories/Model/Cylinder.v
theories/Model/Plotter.v
theories/Model/Heap.v
theories/Model/Int64.v
theories/Model/Norms.v
theories/Spec/Norms.v
theories/Spec/Geometry.v
theories/Proof/VecAlg.v
theories/Spec/Tolerance.v
theories/Spec/Mesh.v
theories/Proof/Bridge.v
theories/Spec/Arrays.v
theories/Spec/Compare.v
theories/Proof/Arrays.v
theories/Proof/Vectors.v
theories/Proof/Points.v
theories/Proof/Lines.v
theories/Proof/Mesh.v
theories/Prop/Arrays.v
theories/Prop/Compare.v
theories/Prop/Vectors.v
theories/Prop/Directions.v
theories/Spec/Linalg.v
theories/Spec/Triangle.v
theories/Spec/Rounding.v
theories/Spec/Cylinder.v
theories/Proof/Lincomb.v
theories/Proof/Svd.v
theories/Proof/Ranks.v
theories/Proof/SvdExists.v
theories/Proof/Fits.v
theories/Proof/Cylinders.v
theories/Proof/Rounding.v
theories/Proof/CylFits.v
theories/Proof/Heap.v
theories/Prop/Points.v
theories/Prop/Lines.v
theories/Prop/Planes.v
theories/Prop/Meshes.v
theories/Prop/Ranks.v
theories/Prop/LinePairs.v
theories/Prop/Fits.v
theories/Prop/Segments.v
theories/Prop/Balls.v
theories/Prop/Spheres.v
theories/Prop/BallFits.v
theories/Prop/Integrals.v
theories/Proof/Triangles.v
theories/Prop/Triangles.v
theories/Prop/Cylinders.v
theories/Prop/CylMesh.v
theories/Prop/CylFit.v
theories/Prop/Rounding.v
theories/Spec/Measure.v
theories/Spec/Plotting.v
theories/Spec/Heap.v
theories/Spec/Int64.v
theories/Prop/Measure.v
theories/Prop/Plotting.v
theories/Prop/Heap.v
theories/Prop/Int64.v
theories/Spec/Floats.v
theories/Spec/Grid.v
theories/Spec/Summation.v
theories/Spec/Errors.v
theories/Spec/Similarity.v
theories/Proof/Floats.v
theories/Proof/FloatErr.v
theories/Proof/Summation.v
theories/Proof/Similarity.v
theories/Proof/Singular.v
theories/Proof/SimRank.v
theories/Prop/Floats.v
theories/Prop/Accuracy.v
theories/Prop/AnyOrder.v
theories/Prop/Decisions.v
theories/Prop/Errors.v
theories/Prop/Witnesses.v
theories/Prop/Backends.v
theories/Prop/Coordinates.v
theories/Prop/CoordShapes.v
theories/Prop/CoordBalls.v
theories/Prop/CoordTriangles.v
theories/Prop/CoordCylinders.v
theories/Prop/CoordMisc.v
theories/Prop/CoordFits.v
theories/Prop/Norms.v
theories/Prop/Finite.v
theories/Prop/Stability.v
theories/Prop/TolOrder.v
theories/Prop/Agree.v
theories/Model/Repr.v
theories/Spec/Repr.v
theories/Prop/Repr.v
theories/Prop/Projections.v
theories/Prop/FloatShapes.v
theories/Prop/Grid.v
theories/Prop/GridCircles.v
theories/Prop/NanRadius.v
theories/Prop/GridTriangles.v
theories/Spec/Batch.v
theories/Prop/Batch.v
theories/Prop/SphereHits.v
theories/Prop/CircleHits.v
theories/Prop/GridLines.v
theories/Prop/GridSegments.v
theories/Prop/GridPlanes.v
theories/Prop/FloatRounding.v
theories/Prop/GridEquality.v
theories/Prop/FloatMeasures.v
theories/Prop/FloatBatch.v
theories/Prop/FloatTriangles.v
theories/Prop/FloatFit.v
