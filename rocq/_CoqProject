-Q theories Verif
theories/Base.v
theories/FxMath.v
theories/FxMathProofs.v
theories/Tensor.v
theories/TensorProofs.v
theories/Permute.v
theories/PermuteProofs.v
theories/Mov.v
theories/MovProofs.v
theories/Dma.v
theories/DmaProofs.v
theories/ArgMax.v
theories/ArgMaxProofs.v
theories/QSpec.v
theories/Quant.v
theories/QuantProofs.v
theories/QuantCastProofs.v
theories/DotProd.v
theories/DotProdProofs.v
theories/Layout.v
theories/Pool.v
theories/PoolProofs.v
theories/PoolKernels.v
theories/Conv.v
theories/ConvSpec.v
theories/ConvProofs.v
theories/ConvValues.v
theories/ConvKernels.v
theories/ConvTheorems.v
theories/ConvInt.v
theories/TransConv.v
theories/TransConvProofs.v
theories/TransConvTheorems.v
theories/FullyConn.v
theories/FullyConnProofs.v
theories/Eltwise.v
theories/EltwiseProofs.v
theories/EltwiseSa8Proofs.v
theories/Relu.v
theories/ReluProofs.v
theories/ReluSa8Proofs.v
theories/Prelu3Proofs.v
theories/Lut.v
theories/LutProofs.v
theories/Softmax.v
theories/SoftmaxProofs.v
theories/L2.v
theories/L2Table.v
theories/L2Proofs.v
theories/Ops3.v
theories/Ops3Proofs.v
theories/Iter.v
theories/IterProofs.v
theories/IterTheorems.v
theories/Views.v
theories/ViewsProofs.v
theories/Convert.v
theories/ConvertProofs.v
theories/Rnn.v
theories/RnnSpec.v
theories/RnnProofs.v
theories/RnnGru.v
theories/RnnDense.v
theories/RnnTheorems.v
theories/RnnStream.v
theories/RealBounds.v
theories/LutReal.v
theories/TileRun.v
theories/TileProofs.v
theories/TileConv.v
theories/TileDw.v
theories/TilePool.v
theories/TileElt.v
theories/TilePoint.v
theories/TileTrans.v
theories/TransTiles.v
theories/TileMove.v
theories/MoveTiles.v
theories/TilePipe.v
theories/TileOps.v
theories/TileStep.v
theories/TilePerm.v
theories/Encode.v
theories/EncodeProofs.v
theories/FcRun.v
theories/FcRunProofs.v
theories/FloatConv.v
theories/FloatConvProofs.v
theories/Ring.v
theories/RingProofs.v
theories/IterAdj.v
theories/IterAdjProofs.v
theories/EncodeOps.v
theories/EncodeOpsProofs.v
theories/Create.v
theories/CreateProofs.v
theories/Properties.v
