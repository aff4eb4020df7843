(** The constructors of the classes in integration/descriptors.py, the calls made there (without the wrappers that [unwrap] removes) and the
    line "module" of the files integration/checkpoints/*.json; transcribed by tools/gen_reprs.py. *)
From Coq Require Import String ZArith NArith List.
From Verif Require Import ModelUtils ModelRepr.
Import ListNotations.
Local Open Scope string_scope.
Local Open Scope Z_scope.

(** [inspect.getfullargspec(cls.__init__)] of each class; a default that is neither a number, a string nor a sequence of them is given by
    its source text. *)
Definition signatures : list (string * signature value) :=
 [
  (** haiku/_src/batch_norm.py:61-74 *)
  ("BatchNorm", Sig ["create_scale"; "create_offset"; "decay_rate"; "eps"; "scale_init"; "offset_init"; "axis"; "cross_replica_axis"; "cross_replica_axis_index_groups"; "data_format"; "name"] [VOther "1e-05"; VNone; VNone; VNone; VNone; VNone; VStr "channels_last"; VNone] false [] false);
  (** haiku/_src/bias.py:73-79 *)
  ("Bias", Sig ["output_size"; "bias_dims"; "b_init"; "name"] [VNone; VNone; VNone; VNone] false [] false);
  (** haiku/_src/conv.py:221-236 *)
  ("Conv1D", Sig ["output_channels"; "kernel_shape"; "stride"; "rate"; "padding"; "with_bias"; "w_init"; "b_init"; "data_format"; "mask"; "feature_group_count"; "name"] [VInt 1; VInt 1; VStr "SAME"; VBool true; VNone; VNone; VStr "NWC"; VNone; VInt 1; VNone] false [] false);
  (** haiku/_src/recurrent.py:409-415 *)
  ("Conv1DLSTM", Sig ["input_shape"; "output_channels"; "kernel_shape"; "name"] [VNone] false [] false);
  (** haiku/_src/conv.py:598-611 *)
  ("Conv1DTranspose", Sig ["output_channels"; "kernel_shape"; "stride"; "output_shape"; "padding"; "with_bias"; "w_init"; "b_init"; "data_format"; "mask"; "name"] [VInt 1; VNone; VStr "SAME"; VBool true; VNone; VNone; VStr "NWC"; VNone; VNone] false [] false);
  (** haiku/_src/conv.py:288-303 *)
  ("Conv2D", Sig ["output_channels"; "kernel_shape"; "stride"; "rate"; "padding"; "with_bias"; "w_init"; "b_init"; "data_format"; "mask"; "feature_group_count"; "name"] [VInt 1; VInt 1; VStr "SAME"; VBool true; VNone; VNone; VStr "NHWC"; VNone; VInt 1; VNone] false [] false);
  (** haiku/_src/recurrent.py:437-443 *)
  ("Conv2DLSTM", Sig ["input_shape"; "output_channels"; "kernel_shape"; "name"] [VNone] false [] false);
  (** haiku/_src/conv.py:652-665 *)
  ("Conv2DTranspose", Sig ["output_channels"; "kernel_shape"; "stride"; "output_shape"; "padding"; "with_bias"; "w_init"; "b_init"; "data_format"; "mask"; "name"] [VInt 1; VNone; VStr "SAME"; VBool true; VNone; VNone; VStr "NHWC"; VNone; VNone] false [] false);
  (** haiku/_src/conv.py:355-370 *)
  ("Conv3D", Sig ["output_channels"; "kernel_shape"; "stride"; "rate"; "padding"; "with_bias"; "w_init"; "b_init"; "data_format"; "mask"; "feature_group_count"; "name"] [VInt 1; VInt 1; VStr "SAME"; VBool true; VNone; VNone; VStr "NDHWC"; VNone; VInt 1; VNone] false [] false);
  (** haiku/_src/recurrent.py:465-471 *)
  ("Conv3DLSTM", Sig ["input_shape"; "output_channels"; "kernel_shape"; "name"] [VNone] false [] false);
  (** haiku/_src/conv.py:706-719 *)
  ("Conv3DTranspose", Sig ["output_channels"; "kernel_shape"; "stride"; "output_shape"; "padding"; "with_bias"; "w_init"; "b_init"; "data_format"; "mask"; "name"] [VInt 1; VNone; VStr "SAME"; VBool true; VNone; VNone; VStr "NDHWC"; VNone; VNone] false [] false);
  (** haiku/_src/conv.py:65-81 *)
  ("ConvND", Sig ["num_spatial_dims"; "output_channels"; "kernel_shape"; "stride"; "rate"; "padding"; "with_bias"; "w_init"; "b_init"; "data_format"; "mask"; "feature_group_count"; "name"] [VInt 1; VInt 1; VStr "SAME"; VBool true; VNone; VNone; VStr "channels_last"; VNone; VInt 1; VNone] false [] false);
  (** haiku/_src/conv.py:458-472 *)
  ("ConvNDTranspose", Sig ["num_spatial_dims"; "output_channels"; "kernel_shape"; "stride"; "output_shape"; "padding"; "with_bias"; "w_init"; "b_init"; "data_format"; "mask"; "name"] [VInt 1; VNone; VStr "SAME"; VBool true; VNone; VNone; VStr "channels_last"; VNone; VNone] false [] false);
  (** haiku/_src/depthwise_conv.py:53-64 *)
  ("DepthwiseConv2D", Sig ["channel_multiplier"; "kernel_shape"; "stride"; "padding"; "with_bias"; "w_init"; "b_init"; "data_format"; "name"] [VInt 1; VStr "SAME"; VBool true; VNone; VNone; VStr "NHWC"; VNone] false [] false);
  (** haiku/_src/embed.py:51-59 *)
  ("Embed", Sig ["vocab_size"; "embed_dim"; "embedding_matrix"; "w_init"; "lookup_style"; "name"] [VNone; VNone; VNone; VNone; VStr "ARRAY_INDEX"; VNone] false [] false);
  (** haiku/_src/reshape.py:140-144 *)
  ("Flatten", Sig ["preserve_dims"; "name"] [VInt 1; VNone] false [] false);
  (** haiku/_src/recurrent.py:516-523 *)
  ("GRU", Sig ["hidden_size"; "w_i_init"; "w_h_init"; "b_init"; "name"] [VNone; VNone; VNone; VNone] false [] false);
  (** haiku/_src/group_norm.py:69-80 *)
  ("GroupNorm", Sig ["groups"; "axis"; "create_scale"; "create_offset"; "eps"; "scale_init"; "offset_init"; "data_format"; "name"] [VOther "slice(1, None)"; VBool true; VBool true; VOther "1e-05"; VNone; VNone; VStr "channels_last"; VNone] false [] false);
  (** haiku/_src/module.py:474-474 *)
  ("IdentityCore", Sig ["name"] [VNone] false [] false);
  (** haiku/_src/layer_norm.py:153-162 *)
  ("InstanceNorm", Sig ["create_scale"; "create_offset"; "eps"; "scale_init"; "offset_init"; "data_format"; "name"] [VOther "1e-05"; VNone; VNone; VStr "channels_last"; VNone] false [] false);
  (** haiku/_src/recurrent.py:282-282 *)
  ("LSTM", Sig ["hidden_size"; "name"] [VNone] false [] false);
  (** haiku/_src/layer_norm.py:43-52 *)
  ("LayerNorm", Sig ["axis"; "create_scale"; "create_offset"; "eps"; "scale_init"; "offset_init"; "name"] [VOther "1e-05"; VNone; VNone; VNone] false [] false);
  (** haiku/_src/basic.py:133-140 *)
  ("Linear", Sig ["output_size"; "with_bias"; "w_init"; "b_init"; "name"] [VBool true; VNone; VNone; VNone] false [] false);
  (** haiku/_src/nets/mlp.py:41-50 *)
  ("MLP", Sig ["output_sizes"; "w_init"; "b_init"; "with_bias"; "activation"; "activate_final"; "name"] [VNone; VNone; VBool true; VOther "jax.nn.relu"; VBool false; VNone] false [] false);
  (** haiku/_src/nets/mobilenetv1.py:103-111 *)
  ("MobileNetV1", Sig ["strides"; "channels"; "num_classes"; "use_bn"; "name"] [VTuple [VInt 1; VInt 2; VInt 1; VInt 2; VInt 1; VInt 2; VInt 1; VInt 1; VInt 1; VInt 1; VInt 1; VInt 2; VInt 1]; VTuple [VInt 64; VInt 128; VInt 128; VInt 256; VInt 256; VInt 512; VInt 512; VInt 512; VInt 512; VInt 512; VInt 512; VInt 1024; VInt 1024]; VInt 1000; VBool true; VNone] false [] false);
  (** haiku/_src/attention.py:43-52 *)
  ("MultiHeadAttention", Sig ["num_heads"; "key_size"; "w_init_scale"; "query_size"; "value_size"; "model_size"; "name"] [VNone; VNone; VNone; VNone] false [] false);
  (** haiku/_src/nets/resnet.py:285-296 *)
  ("ResNet", Sig ["blocks_per_group"; "num_classes"; "bn_config"; "resnet_v2"; "bottleneck"; "channels_per_group"; "use_projection"; "logits_config"; "name"] [VNone; VBool false; VBool true; VTuple [VInt 256; VInt 512; VInt 1024; VInt 2048]; VTuple [VBool true; VBool true; VBool true; VBool true]; VNone; VNone] false [] false);
  (** haiku/_src/recurrent.py:601-601 *)
  ("ResetCore", Sig ["core"; "name"] [VNone] false [] false);
  (** haiku/_src/depthwise_conv.py:140-151 *)
  ("SeparableDepthwiseConv2D", Sig ["channel_multiplier"; "kernel_shape"; "stride"; "padding"; "with_bias"; "w_init"; "b_init"; "data_format"; "name"] [VInt 1; VStr "SAME"; VBool true; VNone; VNone; VStr "NHWC"; VNone] false [] false);
  (** haiku/_src/basic.py:111-115 *)
  ("Sequential", Sig ["layers"; "name"] [VNone] false [] false);
  (** haiku/_src/spectral_norm.py:71-76 *)
  ("SpectralNorm", Sig ["eps"; "n_steps"; "name"] [VFloat false 0%N "0001"; VInt 1; VNone] false [] false);
  (** haiku/_src/recurrent.py:208-213 *)
  ("VanillaRNN", Sig ["hidden_size"; "double_bias"; "name"] [VBool true; VNone] false [] false);
  (** haiku/_src/nets/vqvae.py:64-71 *)
  ("VectorQuantizer", Sig ["embedding_dim"; "num_embeddings"; "commitment_cost"; "dtype"; "name"] [VOther "jnp.float32"; VNone] false [] false);
  (** haiku/_src/nets/vqvae.py:192-202 *)
  ("VectorQuantizerEMA", Sig ["embedding_dim"; "num_embeddings"; "commitment_cost"; "decay"; "epsilon"; "dtype"; "cross_replica_axis"; "name"] [VOther "1e-05"; VOther "jnp.float32"; VNone; VNone] false [] false)].

(** integration/descriptors.py: file name, class, positional and keyword arguments. *)
Definition descriptor_calls : list (string * (string * list value * list (string * value))) :=
 [
  (** line 139 *) ("BatchNorm", ("BatchNorm", [VBool true; VBool true; VFloat false 0%N "9"], []));
  (** line 143 *) ("Bias", ("Bias", [], []));
  (** line 111 *) ("Conv1D", ("Conv1D", [VInt 3; VInt 3], []));
  (** line 115 *) ("Conv1DTranspose", ("Conv1DTranspose", [VInt 3; VInt 3], []));
  (** line 119 *) ("Conv2D", ("Conv2D", [VInt 3; VInt 3], []));
  (** line 123 *) ("Conv2DTranspose", ("Conv2DTranspose", [VInt 3; VInt 3], []));
  (** line 127 *) ("Conv3D", ("Conv3D", [VInt 3; VInt 3], []));
  (** line 131 *) ("Conv3DTranspose", ("Conv3DTranspose", [VInt 3; VInt 3], []));
  (** line 103 *) ("ConvND", ("ConvND", [VInt 1; VInt 3; VInt 3], []));
  (** line 107 *) ("ConvNDTranspose", ("ConvNDTranspose", [VInt 1; VInt 3; VInt 3], []));
  (** line 195 *) ("DepthwiseConv2D", ("DepthwiseConv2D", [VInt 1; VInt 3], []));
  (** line 86 *) ("Embed", ("Embed", [], [("vocab_size", VInt 6); ("embed_dim", VInt 12)]));
  (** line 147 *) ("Flatten", ("Flatten", [], []));
  (** line 155 *) ("GroupNorm", ("GroupNorm", [VInt 5], []));
  (** line 151 *) ("InstanceNorm", ("InstanceNorm", [VBool true; VBool true], []));
  (** line 159 *) ("LayerNorm", ("LayerNorm", [VInt 1; VBool true; VBool true], []));
  (** line 91 *) ("Linear", ("Linear", [VInt 10], []));
  (** line 164 *) ("MultiHeadAttention", ("MultiHeadAttention", [], [("num_heads", VInt 8); ("key_size", VInt 64); ("w_init_scale", VFloat false 1%N "0")]));
  (** line 247 *) ("Recurrent-Conv1DLSTM-dynamic_unroll", ("Conv1DLSTM", [VList [VInt 2]; VInt 3; VInt 3], []));
  (** line 247 *) ("Recurrent-Conv1DLSTM-static_unroll", ("Conv1DLSTM", [VList [VInt 2]; VInt 3; VInt 3], []));
  (** line 251 *) ("Recurrent-Conv2DLSTM-dynamic_unroll", ("Conv2DLSTM", [VList [VInt 2; VInt 2]; VInt 3; VInt 3], []));
  (** line 251 *) ("Recurrent-Conv2DLSTM-static_unroll", ("Conv2DLSTM", [VList [VInt 2; VInt 2]; VInt 3; VInt 3], []));
  (** line 255 *) ("Recurrent-Conv3DLSTM-dynamic_unroll", ("Conv3DLSTM", [VList [VInt 2; VInt 2; VInt 2]; VInt 3; VInt 3], []));
  (** line 255 *) ("Recurrent-Conv3DLSTM-static_unroll", ("Conv3DLSTM", [VList [VInt 2; VInt 2; VInt 2]; VInt 3; VInt 3], []));
  (** line 235 *) ("Recurrent-GRU-dynamic_unroll", ("GRU", [VInt 1], []));
  (** line 235 *) ("Recurrent-GRU-static_unroll", ("GRU", [VInt 1], []));
  (** line 239 *) ("Recurrent-IdentityCore-dynamic_unroll", ("IdentityCore", [], []));
  (** line 239 *) ("Recurrent-IdentityCore-static_unroll", ("IdentityCore", [], []));
  (** line 243 *) ("Recurrent-LSTM-dynamic_unroll", ("LSTM", [VInt 1], []));
  (** line 243 *) ("Recurrent-LSTM-static_unroll", ("LSTM", [VInt 1], []));
  (** line 231 *) ("Recurrent-ResetCore-dynamic_unroll", ("ResetCore", [VModule "DummyCore" []], []));
  (** line 231 *) ("Recurrent-ResetCore-static_unroll", ("ResetCore", [VModule "DummyCore" []], []));
  (** line 259 *) ("Recurrent-VanillaRNN-dynamic_unroll", ("VanillaRNN", [VInt 8], []));
  (** line 259 *) ("Recurrent-VanillaRNN-static_unroll", ("VanillaRNN", [VInt 8], []));
  (** line 199 *) ("SeparableDepthwiseConv2D", ("SeparableDepthwiseConv2D", [VInt 1; VInt 3], []));
  (** line 95 *) ("Sequential", ("Sequential", [VList []], []));
  (** line 169 *) ("SpectralNorm", ("SpectralNorm", [], []));
  (** line 99 *) ("nets.MLP", ("MLP", [VList [VInt 3; VInt 4; VInt 5]], []));
  (** line 178 *) ("nets.MobileNetV1", ("MobileNetV1", [], [("num_classes", VInt 1000); ("strides", VTuple [VInt 1; VInt 1; VInt 1]); ("channels", VTuple [VInt 16; VInt 32; VInt 64])]));
  (** line 173 *) ("nets.ResNet", ("ResNet", [VTuple [VInt 3; VInt 4; VInt 6; VInt 3]; VInt 1000], []));
  (** line 185 *) ("nets.VectorQuantizer", ("VectorQuantizer", [VInt 64; VInt 512; VFloat false 0%N "25"], []));
  (** line 189 *) ("nets.VectorQuantizerEMA", ("VectorQuantizerEMA", [VInt 64; VInt 512; VFloat false 0%N "25"; VFloat false 0%N "9"], []))].

Definition module_lines : list (string * list string) :=
 [
  ("BatchNorm", ["BatchNorm(create_scale=True, create_offset=True, decay_rate=0.9)"]);
  ("Bias", ["Bias()"]);
  ("Conv1D", ["Conv1D(output_channels=3, kernel_shape=3)"]);
  ("Conv1DTranspose", ["Conv1DTranspose(output_channels=3, kernel_shape=3)"]);
  ("Conv2D", ["Conv2D(output_channels=3, kernel_shape=3)"]);
  ("Conv2DTranspose", ["Conv2DTranspose(output_channels=3, kernel_shape=3)"]);
  ("Conv3D", ["Conv3D(output_channels=3, kernel_shape=3)"]);
  ("Conv3DTranspose", ["Conv3DTranspose(output_channels=3, kernel_shape=3)"]);
  ("ConvND", ["ConvND(num_spatial_dims=1, output_channels=3, kernel_shape=3)"]);
  ("ConvNDTranspose", ["ConvNDTranspose(num_spatial_dims=1, output_channels=3, kernel_shape=3)"]);
  ("DepthwiseConv2D", ["DepthwiseConv2D(channel_multiplier=1, kernel_shape=3)"]);
  ("Embed", ["Embed(vocab_size=6, embed_dim=12)"]);
  ("Flatten", ["Flatten()"]);
  ("GroupNorm", ["GroupNorm(groups=5)"]);
  ("InstanceNorm", ["InstanceNorm(create_scale=True, create_offset=True)"]);
  ("LayerNorm", ["LayerNorm(axis=1, create_scale=True, create_offset=True)"]);
  ("Linear", ["Linear(output_size=10)"]);
  ("MultiHeadAttention", ["MultiHeadAttention(num_heads=8, key_size=64, w_init_scale=1.0)"]);
  ("Recurrent-Conv1DLSTM-dynamic_unroll", ["Conv1DLSTM(input_shape=[2], output_channels=3, kernel_shape=3)"]);
  ("Recurrent-Conv1DLSTM-static_unroll", ["Conv1DLSTM(input_shape=[2], output_channels=3, kernel_shape=3)"]);
  ("Recurrent-Conv2DLSTM-dynamic_unroll", ["Conv2DLSTM(input_shape=[2, 2], output_channels=3, kernel_shape=3)"]);
  ("Recurrent-Conv2DLSTM-static_unroll", ["Conv2DLSTM(input_shape=[2, 2], output_channels=3, kernel_shape=3)"]);
  ("Recurrent-Conv3DLSTM-dynamic_unroll", ["Conv3DLSTM(input_shape=[2, 2, 2], output_channels=3, kernel_shape=3)"]);
  ("Recurrent-Conv3DLSTM-static_unroll", ["Conv3DLSTM(input_shape=[2, 2, 2], output_channels=3, kernel_shape=3)"]);
  ("Recurrent-GRU-dynamic_unroll", ["GRU(hidden_size=1)"]);
  ("Recurrent-GRU-static_unroll", ["GRU(hidden_size=1)"]);
  ("Recurrent-IdentityCore-dynamic_unroll", ["IdentityCore()"]);
  ("Recurrent-IdentityCore-static_unroll", ["IdentityCore()"]);
  ("Recurrent-LSTM-dynamic_unroll", ["LSTM(hidden_size=1)"]);
  ("Recurrent-LSTM-static_unroll", ["LSTM(hidden_size=1)"]);
  ("Recurrent-ResetCore-dynamic_unroll", ["ResetCore(core=DummyCore())"]);
  ("Recurrent-ResetCore-static_unroll", ["ResetCore(core=DummyCore())"]);
  ("Recurrent-VanillaRNN-dynamic_unroll", ["VanillaRNN(hidden_size=8)"]);
  ("Recurrent-VanillaRNN-static_unroll", ["VanillaRNN(hidden_size=8)"]);
  ("SeparableDepthwiseConv2D", ["SeparableDepthwiseConv2D(channel_multiplier=1, kernel_shape=3)"]);
  ("Sequential", ["Sequential(layers=[])"]);
  ("SpectralNorm", ["SpectralNorm()"]);
  ("nets.MLP", ["MLP(output_sizes=[3, 4, 5])"]);
  ("nets.MobileNetV1", ["MobileNetV1(strides=(1, 1, 1), channels=(16, 32, 64))"]);
  ("nets.ResNet", ["ResNet(blocks_per_group=(3, 4, 6, 3), num_classes=1000)"]);
  ("nets.VectorQuantizer", ["VectorQuantizer(embedding_dim=64, num_embeddings=512, commitment_cost=0.25)"]);
  ("nets.VectorQuantizerEMA", ["VectorQuantizerEMA("; "    embedding_dim=64,"; "    num_embeddings=512,"; "    commitment_cost=0.25,"; "    decay=0.9,"; ")"])].
